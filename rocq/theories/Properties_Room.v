(** C96: in doubles no phase is empty when the settings leave room; C97: from the plan to all trajectories. *)
From Coq Require Import String Reals ZArith List Bool Lia Lra Sorting.Sorted Sorting.Permutation.
From Flocq Require Import Core IEEE754.BinarySingleNaN.
From Verif Require Import Prelude Rounding FootPrint GenPhases GenSpec GenProofs2 RoundedGen RoundedGenSpec RoundedGenProofs RoundedGenProofs2 RoundedGenProofs3 RoundedGenProofs4
  Doubles DoublesGen DoublesSpec DoublesProofs DoublesProofs2 DoublesProofs3 DoublesProofs4 DoublesProofs6 DoublesExec AnyArithSpec AnyArithProofs TimedPlan TimedPlanSpec TimedPlanProofs5
  DcmTimes DcmTimesSpec DcmTimesProofs ZmpTimes ZmpTimesSpec ZmpTimesProofs ZmpTimesProofs3 FeetTimes FeetTimesSpec RoomSpec RoomProofs
  Properties_Rounded Properties_Doubles Properties_TimedPlan Properties_DcmTimes Properties_ZmpTimes Properties_FeetTimes.
Import ListNotations.
Open Scope R_scope.

(** The generator with doubles, for steps whose times are a walk: the phases all have a sample, and there are at most
    9 B / dT samples. *)
Theorem C96_no_empty_phase : forall l pause left right init dT srt B lead gap ord ph, List.Forall finite_args l -> let s := settings ieee l in
  in_scope s left right init dT B -> sorted64 left right srt ->
  walk (fp_steps (real_foot left)) (fp_steps (real_foot right)) (f2r init) lead gap -> gap <= 4 * B ->
  let d := f2r dT + bpow radix2 (-47) * B in room64 s pause d lead -> room64 s pause d (gap - f2r dT / 2) -> f2r dT <= 2 * f2r (s q_terminal) ->
  n_generate ieee s pause left right init dT srt = Ok (ord, ph) ->
  StronglySorted lt (ph_shift ph) /\ INR (last (ph_shift ph) 0%nat) * f2r dT <= 9 * B.
Proof.
  intros l pause left right init dT srt B lead gap ord ph FA s IS HS W H4 d RL RG HT H.
  destruct (C83_rounded_model l pause left right init dT srt B FA IS) as (Ho & E).
  { intros t Ht. eapply Permutation_in; [apply HS|auto]. }
  set (ops := gops (map (map_setter f2r) l) ++ [GoPauseActive pause]) in *. fold s in E. rewrite H in E.
  destruct (generate_phases_r b64 (settings64 ops) (real_foot left) (real_foot right) (f2r init) (f2r dT) (map real_step srt)) as [out| |] eqn:EG; try contradiction.
  destruct E as (_ & ->). pose proof (good64 ops Ho) as G. pose proof (share64 ops Ho) as GP.
  assert (ES : settings64 ops = gset_of (fun q => f2r (s q)) pause) by (subst ops; rewrite <- gset_settings by auto; reflexivity).
  destruct IS as [(Fd & D0 & D1) (D2 & DB) (Fi & I0) T HE].
  assert (B0 : 0 < B) by (pose proof (bpow_gt_0 radix2 (-900)); lra).
  assert (EE : bpow radix2 (-47) * B = 64 * (u64 * B)) by (rewrite u64_val; change (bpow radix2 (-47)) with (/ 140737488355328); lra).
  assert (U0 : 0 <= u64 * B) by (rewrite u64_val; lra).
  assert (RM : roomy (settings64 ops) (f2r dT) B lead gap).
  { unfold roomy. rewrite ES. cbn [g_switchPct gset_of g_pause g_nomStep]. destruct RL as (A1 & A2 & A3). destruct RG as (A4 & A5 & _). unfold d in *. rewrite EE in *.
    split; [lra|split; [lra|split; [lra|split; [lra|]]]]. intros Q. destruct (A3 Q). lra. }
  assert (BB : forall w, In w (fp_steps (real_foot left) ++ fp_steps (real_foot right)) -> Rabs (st_time w) <= B).
  { intros w Hw. assert (X : exists y, In y (nf_steps left ++ nf_steps right) /\ st_time w = f2r (fst y)).
    { apply in_app_or in Hw. unfold real_foot, foot_at, map_nfoot in Hw. cbn [fp_steps nf_steps] in Hw. rewrite !map_map in Hw.
      destruct Hw as [Hw|Hw]; apply in_map_iff in Hw; destruct Hw as (y & <- & Hy); exists y; (split; [apply in_or_app; auto|reflexivity]). }
    destruct X as (y & Hy & ->). apply (T y Hy). }
  assert (SR : sort_result (fp_steps (real_foot left)) (fp_steps (real_foot right)) (map real_step srt)).
  { apply sorted_real; [|exact HS]. intros x Hx. apply (T x Hx). }
  split.
  - eapply (generate_room (settings64 ops) (f2r dT) (f2r init) B G GP D0 D1 D2 I0 (real_foot left) (real_foot right) (map real_step srt) lead gap out RM); auto.
    rewrite ES. cbn. exact HT.
  - eapply (generate_count (settings64 ops) (f2r dT) (f2r init) B G D0 D1 D2 I0 (real_foot left) (real_foot right) (map real_step srt) lead gap out RM); auto.
    rewrite ES. cbn. exact HE.
Qed.
Print Assumptions C96_no_empty_phase.
(** Without room: a double support of less than half a sample is empty, the right foot swings from the first sample on, and
    the interpolation of the feet fails: a step every quarter of a second at 4 Hz with a double support of a fifth. *)
Definition short_calls : list (setter f64) := [sHeight (a_q ieee 5 100); sRatio (fmake 1 (-2))].
Definition short_left : nfoot f64 := built [fzero] "left".
Definition short_right : nfoot f64 := built [fzero; fmake 1 (-2)] "right".
Lemma short_run : forall A W, A = exec -> W = whole_exec ->
  match n_generate A (settings A short_calls) false short_left short_right fzero (fmake 1 (-2)) (n_all (nf_steps short_left) (nf_steps short_right)) with
  | Ok (o, p) => ph_shift p = [0; 0; 1; 5]%nat
      /\ j_foot A W (settings A short_calls) (fmake 1 (-2)) (ph_shift p) (ph_right p) (length (nf_steps short_right)) = Fail
      /\ c_foot A (settings A short_calls) (fmake 1 (-2)) (ph_shift p) (ph_right p) (length (nf_steps short_right)) = Fail
  | _ => False
  end.
Proof. intros A W -> ->. vm_compute. repeat split; reflexivity. Qed.
Theorem C96_no_room_refuted : exists l ord ph, List.Forall tame l /\ (forall c s, In c l -> snd (setv ieee c s) = true)
  /\ n_generate ieee (settings ieee l) false short_left short_right fzero (fmake 1 (-2)) (n_all (nf_steps short_left) (nf_steps short_right)) = Ok (ord, ph)
  /\ ph_shift ph = [0; 0; 1; 5]%nat
  /\ j_foot ieee whole_ieee (settings ieee l) (fmake 1 (-2)) (ph_shift ph) (ph_right ph) (length (nf_steps short_right)) = Fail
  /\ c_foot ieee (settings ieee l) (fmake 1 (-2)) (ph_shift ph) (ph_right ph) (length (nf_steps short_right)) = Fail.
Proof.
  exists short_calls. pose proof (short_run ieee whole_ieee exec_ok whole_exec_ok) as Q.
  destruct (n_generate ieee (settings ieee short_calls) false short_left short_right fzero (fmake 1 (-2)) _) as [(ord & ph)| |]; [|contradiction|contradiction].
  destruct Q as (Q1 & Q2 & Q3). exists ord, ph. split; [|split; [|split; [reflexivity|split; [exact Q1|split; [exact Q2|exact Q3]]]]].
  - assert (K : forallb (fun c => forallb (fun x => negb (is_nan x)) (args c)) short_calls = true) by (vm_compute; reflexivity). rewrite forallb_forall in K.
    apply List.Forall_forall. intros c Hc. specialize (K c Hc). rewrite forallb_forall in K. split.
    + intros x Hx E. specialize (K x Hx). rewrite E in K. discriminate.
    + destruct Hc as [<-|[<-|[]]]; [exact Logic.I|]. intros E. apply (f_equal (@is_finite 53 1024)) in E. vm_compute in E. discriminate E.
  - assert (K : forall A, A = exec -> forall c s, In c short_calls -> snd (setv A c s) = true).
    { intros A -> c s [<-|[<-|[]]]; vm_compute; reflexivity. }
    exact (K ieee exec_ok).
Qed.
Print Assumptions C96_no_room_refuted.

Lemma last_at : forall l : list nat, last l 0%nat = nth (length l - 1) l 0%nat.
Proof.
  induction l as [|a [|b l] IH]; auto. change (last (a :: b :: l) 0%nat) with (last (b :: l) 0%nat). rewrite IH. cbn [length].
  replace (S (S (length l)) - 1)%nat with (S (length l)) by lia. cbn [nth]. replace (S (length l) - 1)%nat with (length l) by lia. reflexivity.
Qed.
(** The samples of the final switch. *)
Lemma end_samples : forall t dT es, fin t = true -> 0 <= f2r t -> 0 < f2r dT -> f2r t <= bpow radix2 30 * f2r dT ->
  fround (fdiv t dT) = Ok es -> f2r t / f2r dT - 1 <= INR es.
Proof.
  intros t dT es Ft H0 Hd H30 E. assert (Q : 0 <= f2r t / f2r dT <= bpow radix2 30).
  { split; [apply div_nonneg; lra|]. apply (Rmult_le_reg_r (f2r dT)); auto. replace (f2r t / f2r dT * f2r dT) with (f2r t) by (field; lra). exact H30. }
  destruct (fdiv_ok t dT Ft) as (F & V); [lra| |].
  { rewrite Rabs_pos_eq by lra. apply Rle_trans with (bpow radix2 1023); [|apply pow_top]. apply Rle_trans with (bpow radix2 30); [lra|apply bpow_le; lia]. }
  unfold fround in E. rewrite F, V in E. pose proof (b64_near (f2r t / f2r dT) (bpow radix2 30) ltac:(rewrite Rabs_pos_eq; lra)) as N. apply Rabs_le_inv in N.
  assert (U : u64 * bpow radix2 30 + eta64 <= / 4).
  { unfold eta64. assert (bpow radix2 (-1074) <= bpow radix2 (-3)) by (apply bpow_le; lia). change (bpow radix2 (-3)) with (/ 8) in H.
    rewrite u64_val. change (bpow radix2 30) with 1073741824. lra. }
  assert (B0 : 0 <= b64 (f2r t / f2r dT)) by (apply (rnd_nonneg _ b64_rounding); lra). pose proof (Rround_bounds _ B0) as R1. pose proof (Rround_nonneg _ B0) as R0.
  unfold to_size64 in E. destruct (_ || _); [discriminate|]. injection E as <-. rewrite INR_IZR_INZ, Z2Nat.id by auto. lra.
Qed.

(** ** C97: from the plan to the trajectories *)
(** A plan from feet of which one has landed at most [delta] before the initial time (from no step, as in generate, or from
    one step each, as in reGenerate) is executed completely by all generators, when the settings leave room: the
    phases, both feet with either interpolation, the height of the CoM and the DCM.  The ZMP is computed too, unless the
    final switch is one of those of C94. *)
Theorem C97_plan_to_trajectories : forall P (o : geo f64 P) calls init tend aT rs st left0 right0 n left right sw sl pause dT srt B delta,
  List.Forall finite_args calls ->
  let s := settings ieee calls in let c := cfg64 s init tend aT rs st in
  let L := nfoot_with "left" left in let Rt := nfoot_with "right" right in
  fin init = true -> fin tend = true -> resolves (f2r (s q_period)) (f2r tend) ->
  times_ok left0 -> times_ok right0 -> fresh64 left0 right0 -> recent left0 right0 init delta ->
  t_plan ieee c o n left0 right0 = TDone left right sw sl -> ample s pause tend dT B delta -> sorted64 L Rt srt ->
  exists ord ph, n_generate ieee s pause L Rt init dT srt = Ok (ord, ph) /\ INR (length (ph_left ph)) * f2r dT <= 9 * B
    /\ all_complete s pause init dT L Rt ord ph.
Proof.
  intros P o calls init tend aT rs st left0 right0 n left right sw sl pause dT srt B delta FA s c L Rt Fi Fe Hr TL TR FR HI H
    (Fd & Hd & HB1 & HB2 & Hend & HT1 & HT2 & Hmx & Hde & RM & DR & Nh & Hap & Nc & Hom & Fst & Hst) HS.
  assert (TM : List.Forall tame calls) by (eapply List.Forall_impl; [apply finite_tame|exact FA]).
  pose proof (bpow_gt_0 radix2 (-900)) as P9. pose proof (C82_ranges calls TM) as V. fold s in V.
  assert (C46 : bpow radix2 (-46) = / 70368744177664) by reflexivity. assert (C47 : bpow radix2 (-47) = / 140737488355328) by reflexivity.
  assert (C48 : bpow radix2 (-48) = / 281474976710656) by reflexivity. assert (C51 : bpow radix2 (-51) = / 2251799813685248) by reflexivity.
  pose proof (gen_fin calls FA) as GF. fold s in GF.
  assert (Fsh : fin (s q_share) = true) by (apply GF; simpl; tauto). assert (Fte : fin (s q_terminal) = true) by (apply GF; simpl; tauto).
  assert (Fmx : fin (s q_maxStep) = true) by (apply GF; simpl; tauto).
  assert (Hp : 0 <= f2r (s q_share) <= 1).
  { destruct (v_share _ V) as (A1 & A2). apply le64_inv in A1. apply le64_inv in A2. destruct f1_ok as (F1 & V1). rewrite (key_fin _ Fsh) in *. rewrite (key_fin f1 F1), V1 in A2. exact (conj A1 A2). }
  assert (Hte : 0 < f2r (s q_terminal)).
  { pose proof (lt64_inv _ _ (v_terminal _ V)) as K. rewrite (key_fin _ Fte) in K. exact K. }
  pose proof (time_fin calls FA) as TF. fold s in TF.
  assert (Fn : fin (s q_nomT) = true) by (apply TF; unfold tfields; simpl; tauto).
  assert (Fm : fin (s q_minT) = true) by (apply TF; unfold tfields; simpl; tauto).
  assert (Hmn : f2r (s q_minT) <= f2r (s q_nomT)).
  { destruct (v_times _ V) as (_ & Q & _). apply le64_inv in Q. rewrite !key_fin in Q by auto. exact Q. }
  pose proof RM as (RM1 & RM2 & RM3).
  assert (Hm : 2 * (f2r dT + bpow radix2 (-46) * B) <= f2r (s q_minT) - delta) by lra.
  assert (B0 : 0 < B) by lra.
  assert (H48 : bpow radix2 (-48) * B <= f2r (s q_minT)) by (rewrite C46 in Hm; rewrite C48; lra).
  destruct (first_plan_walk (rgap c B - delta) P o calls init tend aT rs st left0 right0 n left right sw sl "left" "right" B) as (W & WL & WR & K & Hie & Hn); auto; [lra|right; fold s; fold c; replace (rgap c B - (rgap c B - delta)) with delta by ring; exact HI|].
  fold s in W, Hn. fold c in W. fold L Rt in W.
  assert (IS : in_scope s L Rt init dT B).
  { assert (BND : forall m (z : list (P * f64)) w, List.Forall (within P B) z -> In w (nf_steps (nfoot_with m z)) -> fin (fst w) = true /\ Rabs (f2r (fst w)) <= B).
    { intros m z w Z I. unfold nfoot_with in I. cbn [nf_steps] in I. apply in_map_iff in I. destruct I as (v & <- & I). rewrite List.Forall_forall in Z.
      destruct (Z v I) as (Z1 & Z2 & Z3). cbn [fst]. split; auto. apply Rabs_le. lra. }
    constructor; auto.
    - split; auto. apply Rle_trans with (bpow radix2 26 * f2r dT); auto. apply Rmult_le_compat_r; [lra|apply bpow_le; lia].
    - split; auto. apply Rabs_le. lra.
    - intros w I. apply in_app_or in I. destruct I as [I|I]; [apply (BND "left"%string left)|apply (BND "right"%string right)]; auto. }
  destruct (C88_plan_then_phases P o calls init tend aT rs st left0 right0 n left right sw sl pause "left" "right" dT srt B) as (ord & ph & OK); auto.
  { apply (i_B _ _ _ _ _ _ IS). }
  { fold s. rewrite C46 in Hm. rewrite C48. lra. }
  { discriminate. }
  fold s L Rt in OK. exists ord, ph. split; [exact OK|].
  assert (M : forall q e, 0 <= q <= 1 -> e <= delta -> f2r dT + bpow radix2 (-46) * B <= q * (f2r (s q_minT) - delta) -> f2r dT + bpow radix2 (-47) * B <= q * (rgap c B - e)).
  { intros q e Hq He HH. unfold rgap. change (c_min c) with (s q_minT). assert (q * (bpow radix2 (-51) * B) <= 1 * (bpow radix2 (-51) * B)) by (apply Rmult_le_compat_r; [rewrite C51; lra|lra]).
    assert (0 <= q * (delta - e)) by (apply Rmult_le_pos; lra).
    replace (q * (f2r (s q_minT) - bpow radix2 (-51) * B - e)) with (q * (f2r (s q_minT) - delta) - q * (bpow radix2 (-51) * B) + q * (delta - e)) by ring.
    rewrite C46 in HH. rewrite C47. rewrite C51 in *. lra. }
  assert (RX : forall e, e <= delta -> room64 s pause (f2r dT + bpow radix2 (-47) * B) (rgap c B - e)).
  { intros e He. split; [apply M; auto|split; [apply M; auto; lra|]]. intros Q. destruct (RM3 Q). rewrite C46 in *. rewrite C47. lra. }
  pose proof (RX delta (Rle_refl _)) as RL. pose proof (RX (f2r dT / 2) Hde) as RG.
  destruct (C96_no_empty_phase calls pause L Rt init dT srt B (rgap c B - delta) (rgap c B) ord ph FA IS HS W) as (ST & CT); auto.
  { unfold rgap. change (c_min c) with (s q_minT). rewrite C51. lra. }
  set (N := length (ph_left ph)).
  destruct (C91_phases_any_arithmetic _ _ _ _ _ _ _ _ _ _ _ OK) as (Pm & L2 & Hh & _ & Ls & LL & LR & _).
  assert (EN : N = last (ph_shift ph) 0%nat) by exact LL.
  assert (HN : INR N * f2r dT <= 9 * B) by (rewrite EN; exact CT). split; [exact HN|]. split; [exact ST|]. cbv zeta. fold N.
  assert (HZ : (Z.of_nat N <= 2 ^ 30)%Z).
  { apply le_IZR. rewrite <- INR_IZR_INZ. apply (Rmult_le_reg_r (f2r dT)); [lra|]. change (bpow radix2 26) with 67108864 in HB1. change (IZR (2 ^ 30)) with 1073741824. lra. }
  assert (Hd9 : bpow radix2 (-900) <= f2r dT <= bpow radix2 900) by lra.
  assert (Pst : Permutation srt (n_all (nf_steps L) (nf_steps Rt))) by apply HS.
  destruct (C95_after_the_phases calls pause L Rt init dT srt ord ph TM Pst OK ST Fd Hd9 ltac:(assert (2 ^ 30 < 2 ^ 40)%Z by (apply Z.pow_lt_mono_r; lia); fold N; lia)) as (F1 & F2).
  destruct (F1 Nh) as ((a & b & J1 & J2 & J3 & J4 & J5 & J6 & _) & F1b). destruct (F1b Hap) as (a' & b' & J1' & J2' & J3' & J4' & J5' & J6' & _).
  destruct (F2 Nc) as (h & M1 & M2 & M3 & _).
  split; [exists a, b; repeat (split; [assumption|]); assumption|]. split; [exists a', b'; repeat (split; [assumption|]); assumption|]. split; [exists h; repeat (split; [assumption|]); assumption|].
  destruct (last_phase_length _ _ _ _ _ _ _ _ _ _ _ OK) as (es & Res & Les).
  destruct DR as (DR1 & DR2).
  assert (HES : f2r (s q_terminal) / f2r dT - 1 <= INR es).
  { apply end_samples; auto; try lra. apply Rle_trans with B; auto. apply Rle_trans with (bpow radix2 26 * f2r dT); auto. apply Rmult_le_compat_r; [lra|apply bpow_le; lia]. }
  assert (KL : k_long (s q_still) dT pause (fmul (s q_share) (s q_maxStep)) (fmul (s q_share) (s q_nomStep)) (s q_terminal) (ph_shift ph)).
  { constructor; auto; [rewrite <- EN; exact HZ|]. intros _ n1 n2 E1 E2.
    assert (n2 - n1 = es)%nat as ->.
    { apply nth_error_nth with (d := 0%nat) in E1. apply nth_error_nth with (d := 0%nat) in E2. unfold last_begin in Les. rewrite E1 in Les.
      rewrite last_at, E2 in Les. lia. }
    apply Rle_trans with ((f2r (s q_terminal) / f2r dT - 1) * (1 - f2r (s q_still))).
    - apply (Rmult_le_reg_r (f2r dT)); [lra|]. replace ((f2r (s q_terminal) / f2r dT - 1) * (1 - f2r (s q_still)) * f2r dT) with ((f2r (s q_terminal) - f2r dT) * (1 - f2r (s q_still))) by (field; lra). exact DR1.
    - apply Rmult_le_compat_r; lra. }
  assert (KN : forall x, In x srt -> known (n_name x)).
  { intros x Hx. eapply Permutation_in in Hx; [|exact Pst]. unfold n_all in Hx. apply in_app_or in Hx.
    assert (Tag : forall lf (q : list (f64 * string)) k x, In x (n_tag lf k q) -> exists y, In y q /\ n_name x = snd y).
    { clear. induction q as [|(t & m) q IH]; intros k x Hx; cbn in Hx; [contradiction|]. destruct Hx as [<-|Hx]; [exists (t, m); cbn; auto|]. destruct (IH _ _ Hx) as (y & ? & ?). exists y. cbn; auto. }
    destruct Hx as [Hx|Hx]; apply Tag in Hx; destruct Hx as (y & Hy & ->); unfold L, Rt, nfoot_with in Hy; cbn [nf_steps] in Hy; apply in_map_iff in Hy; destruct Hy as (z & <- & _); [left|right]; reflexivity. }
  assert (Ht9 : f2r (s q_terminal) <= bpow radix2 900) by lra.
  destruct (C90_after_the_phases calls pause L Rt init dT srt ord ph TM KN OK Hom Fst Hst Fd Hd9 Fmx Hmx Fte Ht9
    ltac:(assert (2 ^ 30 < 2 ^ 50)%Z by (apply Z.pow_lt_mono_r; lia); fold N; lia)) as (_ & DC).
  split; [exact (DC KL)|].
  assert (NM : forall m (z : list (P * f64)) x, List.Forall (within P B) z -> In x (nf_steps (nfoot_with m z)) -> number (fst x) /\ snd x = nf_name (nfoot_with m z)).
  { intros m z x Z I. unfold nfoot_with in I. cbn [nf_steps] in I. apply in_map_iff in I. destruct I as (v & <- & I). rewrite List.Forall_forall in Z.
    destruct (Z v I) as (Z1 & _). split; [apply fin_number; exact Z1|reflexivity]. }
  assert (Hi9 : 0 <= f2r init <= bpow radix2 960).
  { split; auto. assert (bpow radix2 900 <= bpow radix2 960) by (apply bpow_le; lia). lra. }
  destruct (C94_after_the_phases calls pause L Rt init dT srt ord ph TM Pst (fun x Hx => NM _ _ x WL Hx) (fun x Hx => NM _ _ x WR Hx) OK ST Fi Hi9 Fd Hd9
    ltac:(assert (2 ^ 30 < 2 ^ 50)%Z by (apply Z.pow_lt_mono_r; lia); fold N; lia)) as (k & Z1 & Z2 & Z3).
  { intros Ep. destruct (DR2 Ep) as (_ & Q2 & _). split; [exact Fmx|split; [exact Hmx|split; [exact Fte|split; [exact Ht9|]]]].
    apply Rle_trans with (1001 / 1000 * f2r dT); [lra|exact Q2]. }
  exists k. split; [exact Z1|]. split; [exact Z2|]. destruct Z3 as [Z3|(w & Z3 & Y1 & Y2 & Y3 & Y4 & Y5 & Y6 & Y7 & _)]; [left; exact Z3|right].
  exists w. repeat (split; [assumption|]); assumption.
Qed.
Print Assumptions C97_plan_to_trajectories.
(** A plan of six steps at 4 Hz with pauses: all hypotheses hold, and the ZMP is computed too. *)
Definition walk_calls : list (setter f64) := plan_calls ++ [sHeight (a_q ieee 5 100); sCom (a_q ieee 5 10) (a_q ieee 1 100)].
Lemma walk_values : let s := settings ieee walk_calls in f2r (s q_terminal) = 1 /\ f2r (s q_nomT) = 2 /\ s q_period = fmake 1 (-2).
Proof.
  assert (Es : forall q z, settings ieee walk_calls q = fmake z 0 -> (Z.abs z <= 2 ^ 53)%Z -> f2r (settings ieee walk_calls q) = IZR z).
  { intros q z Eq Hz. rewrite Eq. apply fmake_exact. exact Hz. }
  split; [apply (Es _ 1%Z); [apply same_f64; vm_compute; reflexivity|lia]|]. split; [apply (Es _ 2%Z); [apply same_f64; vm_compute; reflexivity|lia]|].
  apply same_f64. vm_compute. reflexivity.
Qed.
Lemma walk_ample : forall tend delta, f2r tend <= 9 -> 1 / 8 <= delta <= 9 / 20 -> ample (settings ieee walk_calls) true tend (fmake 1 (-2)) 16 delta.
Proof.
  intros tend delta HE HD. set (s := settings ieee walk_calls).
  assert (P900 : 1000 <= bpow radix2 900 /\ bpow radix2 (-900) <= 1 / 1000).
  { pose proof (bpow_le radix2 10 900 ltac:(lia)). pose proof (bpow_le radix2 (-900) (-10) ltac:(lia)).
    change (bpow radix2 10) with 1024 in *. change (bpow radix2 (-10)) with (/ 1024) in *. lra. }
  assert (Es : forall q z, s q = fmake z 0 -> (Z.abs z <= 2 ^ 53)%Z -> f2r (s q) = IZR z).
  { intros q z Eq Hz. rewrite Eq. apply fmake_exact. exact Hz. }
  assert (Vm : f2r (s q_minT) = 1) by (apply (Es _ 1%Z); [apply same_f64; vm_compute; reflexivity|lia]).
  assert (Vn : f2r (s q_nomT) = 2) by (apply (Es _ 2%Z); [apply same_f64; vm_compute; reflexivity|lia]).
  assert (Vt : f2r (s q_terminal) = 1) by (apply (Es _ 1%Z); [apply same_f64; vm_compute; reflexivity|lia]).
  assert (Vx : f2r (s q_maxStep) = 10) by (apply (Es _ 10%Z); [apply same_f64; vm_compute; reflexivity|lia]).
  assert (Vo : f2r (s q_nomStep) = 2) by (apply (Es _ 2%Z); [apply same_f64; vm_compute; reflexivity|lia]).
  destruct (f2r_val (s q_share) 4503599627370496 53) as (_ & Vs); [vm_compute; reflexivity|].
  destruct (f2r_val (s q_apex) 4503599627370496 53) as (_ & Va); [vm_compute; reflexivity|].
  destruct (f2r_val (s q_still) 7205759403792794 56) as (Fq & Vq); [vm_compute; reflexivity|].
  destruct (f2r_val (fmul (s q_share) (s q_maxStep)) 5629499534213120 50) as (_ & Vsx); [vm_compute; reflexivity|].
  destruct (f2r_val (fmul (s q_share) (s q_nomStep)) 4503599627370496 52) as (_ & Vsn); [vm_compute; reflexivity|].
  cbn [Zpower_pos Pos.iter Z.mul Pos.mul] in Vs, Va, Vq, Vsx, Vsn.
  assert (P50 : bpow radix2 (-50) <= 1 / 1000 /\ bpow radix2 (-100) <= 1 / 1000).
  { pose proof (bpow_le radix2 (-50) (-10) ltac:(lia)). pose proof (bpow_le radix2 (-100) (-10) ltac:(lia)). change (bpow radix2 (-10)) with (/ 1024) in *. lra. }
  unfold ample. rewrite quarter, Vn, Vt, Vx, Va, Vq.
  split; [vm_compute; reflexivity|]. split; [lra|]. split; [change (bpow radix2 26) with 67108864; lra|]. repeat (split; [lra|]).
  split; [unfold room64; rewrite Vs, Vm, Vo; change (bpow radix2 (-46)) with (/ 70368744177664); repeat split; intros; lra|].
  split; [unfold dcm_room; rewrite Vt, Vq, Vsn, Vsx; repeat split; intros; lra|].
  split; [intros K; apply (f_equal (fun x => Bltb x fzero)) in K; vm_compute in K; discriminate K|].
  split; [lra|]. split; [intros K; apply (f_equal (fun x => Bltb x fzero)) in K; vm_compute in K; discriminate K|].
  split; [unfold lt64; vm_compute; reflexivity|]. split; [exact Fq|lra].
Qed.
Example C97_example : exists left right sw sl srt ord ph, let s := settings ieee walk_calls in let dT := fmake 1 (-2) in
  t_plan ieee (cfg64 s fzero (fmake 6 0) true true true) some_geo 30 [] [] = TDone left right sw sl
  /\ length left = 3%nat /\ length right = 3%nat /\ sorted64 (nfoot_with "left" left) (nfoot_with "right" right) srt
  /\ n_generate ieee s true (nfoot_with "left" left) (nfoot_with "right" right) fzero dT srt = Ok (ord, ph) /\ StronglySorted lt (ph_shift ph)
  /\ (exists tr us, k_compute ieee s true dT (map (n_name (N:=f64)) ord) ph = Ok (tr, us) /\ length us = length (ph_left ph))
  /\ exists w, z_compute ieee whole_ieee s true fzero dT "left" "right" ord ph = Ok w /\ length (zw_weight w) = length (ph_left ph).
Proof.
  set (s := settings ieee walk_calls).
  set (r := t_plan ieee (cfg64 s fzero (fmake 6 0) true true true) some_geo 30 [] []).
  assert (E : match r with TDone a b _ _ => Nat.eqb (length a) 3 && Nat.eqb (length b) 3
      && forallb (fun x => fin (n_time x)) (n_all (nf_steps (nfoot_with "left" a)) (nf_steps (nfoot_with "right" b))) | _ => false end = true)
    by (vm_compute; reflexivity).
  destruct r as [left right sw sl| | |] eqn:ER; try discriminate E.
  apply andb_true_iff in E. destruct E as (E & E3). apply andb_true_iff in E. destruct E as (E1 & E2). apply Nat.eqb_eq in E1. apply Nat.eqb_eq in E2.
  destruct (sorted_exists _ E3) as (srt & HS).
  assert (FA : List.Forall finite_args walk_calls).
  { assert (K : forallb (fun c => forallb fin (args c)) walk_calls = true) by (vm_compute; reflexivity). rewrite forallb_forall in K.
    apply List.Forall_forall. intros c Hc. specialize (K c Hc). rewrite forallb_forall in K. exact K. }
  destruct (walk_values) as (Vt & _ & P4). fold s in Vt, P4. destruct (fmake_exact 6) as (F6 & V6); [lia|]. pose proof quarter as V4.
  assert (F4 : fin (fmake 1 (-2)) = true) by (vm_compute; reflexivity).
  assert (P900 : 1000 <= bpow radix2 900).
  { pose proof (bpow_le radix2 10 900 ltac:(lia)). change (bpow radix2 10) with 1024 in *. lra. }
  destruct (C97_plan_to_trajectories unit some_geo walk_calls fzero (fmake 6 0) true true true [] [] 30 left right sw sl true (fmake 1 (-2)) srt 16 (1 / 8))
    as (ord & ph & G1 & _ & G2 & _ & _ & _ & (tr & us & D1 & _ & D2 & _) & m & M1 & M2 & M3); auto; try (intros ? []; fail).
  - fold s. rewrite P4. unfold resolves. rewrite V4, V6. change (bpow radix2 (-52)) with (/ 4503599627370496). lra.
  - left. auto.
  - split; [lra|left; reflexivity].
  - apply walk_ample; lra.
  - exists left, right, sw, sl, srt, ord, ph. cbv zeta. fold s in G1, D1, M1, M2, M3. split; [exact ER|]. split; [exact E1|split; [exact E2|split; [exact HS|split; [exact G1|split; [exact G2|]]]]].
    split; [exists tr, us; auto|]. destruct M3 as [M3|(w & W1 & W2 & _)]; [|exists w; auto].
    exfalso. apply M2 in M3. destruct M3 as (_ & _ & M3). revert M3. apply (C94_powers_of_two _ (-2)); auto; [lia|].
    cbn [a_round ieee] in M1. unfold fround in M1. destruct (fin _) eqn:Ff in M1; [|discriminate]. unfold to_size64 in M1. destruct (_ || _) eqn:Er in M1; [discriminate|].
    injection M1 as <-. destruct (fdiv_ok (s q_terminal) (fmake 1 (-2))) as (_ & Vd).
    { apply (gen_fin walk_calls FA). simpl. tauto. }
    { rewrite V4. lra. }
    { rewrite Vt, V4. rewrite Rabs_pos_eq by lra. pose proof pow_top. pose proof (bpow_le radix2 900 1023 ltac:(lia)). lra. }
    rewrite Vd, Vt, V4. replace (1 / / 4) with (IZR 4) by (simpl; field). rewrite b64_fix by (apply is_b64_int; lia). rewrite Rround_IZR by lia. cbn. lia.
Qed.
(** The hypotheses of C96 are met there as well: its phases are not empty. *)
Example C96_example : exists left right srt ord ph, n_generate ieee (settings ieee walk_calls) true left right fzero (fmake 1 (-2)) srt = Ok (ord, ph)
  /\ length (nf_steps left) = 3%nat /\ length (nf_steps right) = 3%nat /\ StronglySorted lt (ph_shift ph).
Proof.
  destruct C97_example as (left & right & sw & sl & srt & ord & ph & _ & El & Er & _ & G & Hs & _).
  exists (nfoot_with "left" left), (nfoot_with "right" right), srt, ord, ph. cbn [nf_steps nfoot_with]. rewrite !map_length. auto.
Qed.
