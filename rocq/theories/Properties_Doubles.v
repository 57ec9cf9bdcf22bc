(** C82 to C85: settings, phases and sorting when every number is an IEEE double, with infinities and NaN. *)
From Coq Require Import String Reals ZArith List Bool Lia Lra Sorting.Sorted Sorting.Permutation.
From Flocq Require Import Core IEEE754.BinarySingleNaN.
From Verif Require Import Prelude Rounding FootPrint GenPhases GenSpec RoundedGen RoundedGenSpec RoundedGenProofs4
  Doubles DoublesGen DoublesSpec DoublesProofs DoublesProofs2 DoublesProofs3 DoublesProofs4 DoublesProofs5 DoublesProofs6
  Properties_Rounded.
Import ListNotations.
Open Scope R_scope.
Opaque fadd fsub fmul fdiv fmake f1 fm1 fpi rad.

(** ** C82: settings *)
(** The instance with exact reals is the model of the setters in the other files. *)
Theorem C82_exact_models : forall c o,
  snd (setv reals c (view o)) = snd (exact_call c o)
  /\ (forall q, fst (setv reals c (view o)) q = view (fst (exact_call c o)) q)
  /\ forall q, initv reals q = view new_objects q.
Proof. intros c o. destruct (setv_exact c o) as (A & B). repeat split; auto. apply init_exact. Qed.
Print Assumptions C82_exact_models.

(** With finite arguments rounding and overflow never change what a setter answers. *)
Theorem C82_same_calls_accepted : forall c s o, finite_args c ->
  snd (setv ieee c s) = snd (exact_call (map_setter f2r c) o).
Proof.
  intros c s o F. destruct (step_agrees c s (fun q => f2r (s q)) F) as (E & _); [intros q _; reflexivity|].
  rewrite E. destruct (setv_exact (map_setter f2r c) o) as (E2 & _). rewrite <- E2. apply accept_rn.
  assert (Q : args (map_setter f2r c) = map f2r (args c)) by (destruct c; reflexivity).
  rewrite Q. intros x Hx. apply in_map_iff in Hx. destruct Hx as (y & <- & Hy). apply f2r_b64.
Qed.
Print Assumptions C82_same_calls_accepted.

(** After finite arguments every finite setting is the one computed with unbounded exponents. *)
Theorem C82_stored_values : forall l q, List.Forall finite_args l -> fin (settings ieee l q) = true ->
  f2r (settings ieee l q) = settings rn64 (map (map_setter f2r) l) q.
Proof. intros l q H F. exact (history_agrees l H q F). Qed.
Print Assumptions C82_stored_values.

(** All settings keep their documented ranges, infinite arguments included, unless an argument is NaN or the call turns
    an infinity into NaN (C85). *)
Theorem C82_ranges : forall l, List.Forall tame l -> valid (settings ieee l).
Proof. exact valid_history. Qed.
Print Assumptions C82_ranges.

(** Calls that meet the hypotheses: one overflows to an infinite share denominator, one is refused, one is infinite. *)
Example C82_example : exists big, fin big = true /\ is_nan big = false
  /\ List.Forall tame [sRatio big; sTerminal fm1; sPause finf f1]
  /\ List.Forall finite_args [sRatio big; sTerminal fm1]
  /\ snd (setv ieee (sRatio big) (initv ieee)) = true /\ snd (setv ieee (sTerminal fm1) (initv ieee)) = false
  /\ snd (setv ieee (sPause finf f1) (initv ieee)) = true
  /\ settings ieee [sRatio big; sTerminal fm1; sPause finf f1] q_maxStep = finf.
Proof.
  exists (fmake 1 1023). split; [vm_compute; reflexivity|]. split; [vm_compute; reflexivity|].
  assert (N : forall x : f64, is_nan x = false -> number x) by (intros x H E; rewrite E in H; discriminate).
  assert (N1 : is_nan (fmake 1 1023) = false) by (vm_compute; reflexivity).
  assert (N2 : is_nan fm1 = false) by (vm_compute; reflexivity).
  assert (N3 : is_nan f1 = false) by (vm_compute; reflexivity).
  split.
  { repeat apply Forall_cons; [..|apply Forall_nil]; split.
    - cbn [args In]. intros x [<-|[]]. apply N, N1.
    - intros E. assert (E2 : is_finite (fmake 1 1023) = true) by (vm_compute; reflexivity). rewrite E in E2. discriminate.
    - cbn [args In]. intros x [<-|[]]. apply N, N2.
    - exact Logic.I.
    - cbn [args In]. intros x [<-|[<-|[]]]; [discriminate|apply N, N3].
    - exact Logic.I. }
  split.
  { repeat apply Forall_cons; [..|apply Forall_nil]; unfold finite_args; cbn [args In]; intros x [<-|[]]; vm_compute; reflexivity. }
  repeat split; vm_compute; reflexivity.
Qed.

(** ** C83: phases *)
(** For finite settings and times within 2^50 sampling periods no operation overflows, no conversion is out of range,
    and the result is that of the rounded model, so C80 and C81 hold for the doubles themselves. *)
Theorem C83_rounded_model : forall l pause left right init dT srt B, List.Forall finite_args l ->
  in_scope (settings ieee l) left right init dT B ->
  (forall t, In t srt -> In t (n_all (nf_steps left) (nf_steps right))) ->
  let ops := gops (map (map_setter f2r) l) ++ [GoPauseActive pause] in
  List.Forall gop_b64 ops
  /\ match n_generate ieee (settings ieee l) pause left right init dT srt,
           generate_phases_r b64 (settings64 ops) (real_foot left) (real_foot right) (f2r init) (f2r dT) (map real_step srt) with
     | Ok (ord, ph), Ok out => map (map_nstep f2r) ord = map nstep_of (go_ord out) /\ ph = go_ph out
     | Fail, Fail => True
     | UB, UB => True
     | _, _ => False
     end.
Proof.
  intros l pause left right init dT srt B H Hi Hs ops. split.
  { apply Forall_app. split; [apply gops_b64; auto|repeat constructor]. }
  pose proof (refines l pause left right init dT srt B H Hi Hs) as E. fold ops in E.
  destruct (n_generate ieee (settings ieee l) pause left right init dT srt) as [(ord & ph)| |];
  destruct (generate_phases_r b64 (settings64 ops) _ _ _ _ _) as [out| |]; unfold rmap, strip in E; cbn [fst snd] in E; try discriminate E; auto.
  inversion E. auto.
Qed.
Print Assumptions C83_rounded_model.

(** No undefined behaviour. *)
Theorem C83_defined : forall l pause left right init dT srt B, List.Forall finite_args l ->
  in_scope (settings ieee l) left right init dT B -> sorted64 left right srt ->
  f2r dT <= 2 * f2r (settings ieee l q_terminal) ->
  (exists x, In x (nf_steps left ++ nf_steps right) /\ f2r init <= f2r (fst x) + f2r (settings ieee l q_terminal)) ->
  n_generate ieee (settings ieee l) pause left right init dT srt <> UB.
Proof.
  intros l pause left right init dT srt B H Hi Hs Hd (x & Hx & Hx2).
  assert (HF : forall y, In y (nf_steps left ++ nf_steps right) -> fin (fst y) = true) by (intros y Hy; apply (i_times _ _ _ _ _ _ Hi y Hy)).
  destruct (C83_rounded_model l pause left right init dT srt B H Hi) as (Ho & E).
  { intros t Ht. eapply Permutation_in; [apply Hs|auto]. }
  set (ops := gops (map (map_setter f2r) l) ++ [GoPauseActive pause]) in *.
  assert (G : g_endSwitch (settings64 ops) = f2r (settings ieee l q_terminal)).
  { subst ops. rewrite <- gset_settings by auto. reflexivity. }
  intros U. rewrite U in E. destruct (generate_phases_r _ _ _ _ _ _ _) as [out| |] eqn:Q; try contradiction.
  revert Q. apply C80_no_wrap; auto.
  - apply sorted_real; auto.
  - rewrite G. auto.
  - apply in_app_or in Hx.
    assert (K : forall (f : nfoot f64), In x (nf_steps f) -> exists i s, nth_error (fp_steps (real_foot f)) i = Some s /\ st_time s = f2r (fst x)).
    { intros f Hf. apply In_nth_error in Hf. destruct Hf as (i & Hf). exists i. eexists. unfold real_foot, foot_at. cbn [fp_steps map_nfoot nf_steps].
      rewrite !nth_error_map, Hf. cbn. split; reflexivity. }
    destruct Hx as [Hx|Hx]; destruct (K _ Hx) as (i & s & K1 & K2); [exists true|exists false]; exists i, s; (split; [exact K1|rewrite K2, G; auto]).
Qed.
Print Assumptions C83_defined.

(** What the caller gets: two phase lists of the same length, complementary at every sample, with the shift instants
    increasing from 0 to that length. *)
Theorem C83_phases : forall l pause left right init dT srt B ord ph, List.Forall finite_args l ->
  in_scope (settings ieee l) left right init dT B -> sorted64 left right srt ->
  n_generate ieee (settings ieee l) pause left right init dT srt = Ok (ord, ph) ->
  length (ph_left ph) = length (ph_right ph)
  /\ hd_error (ph_shift ph) = Some 0%nat
  /\ StronglySorted le (ph_shift ph)
  /\ last (ph_shift ph) 0%nat = length (ph_left ph)
  /\ (forall i, (i < length (ph_left ph))%nat ->
      exists p q, nth_error (ph_left ph) i = Some p /\ nth_error (ph_right ph) i = Some q /\ complementary p q)
  /\ forall k t, nth_error ord (2 + k) = Some t -> exists e, nth_error (ph_shift ph) (2 * k + 2) = Some e
     /\ Rabs (f2r init + INR e * f2r dT - f2r (n_time t)) <= f2r dT / 2 + INR (k + 1) * (bpow radix2 (-50) * B).
Proof.
  intros l pause left right init dT srt B ord ph H Hi Hs E.
  assert (HF : forall y, In y (nf_steps left ++ nf_steps right) -> fin (fst y) = true) by (intros y Hy; apply (i_times _ _ _ _ _ _ Hi y Hy)).
  destruct (C83_rounded_model l pause left right init dT srt B H Hi) as (Ho & R0).
  { intros t Ht. eapply Permutation_in; [apply Hs|auto]. }
  set (ops := gops (map (map_setter f2r) l) ++ [GoPauseActive pause]) in *.
  rewrite E in R0. destruct (generate_phases_r _ _ _ _ _ _ _) as [out| |] eqn:Q; try contradiction. destruct R0 as (R1 & ->).
  destruct (C80_phases _ _ _ _ _ _ _ Ho Q) as (P1 & P2 & P3 & P4 & _ & P5).
  repeat (split; [assumption|]). split.
  { intros i Hl. destruct (P5 i Hl) as (p & q & A1 & A2 & A3 & _). eauto. }
  intros k t Hk. destruct Hi as [(_ & D1) (D2 & _) (_ & I2) T _].
  assert (K : exists t', nth_error (go_ord out) (2 + k) = Some t' /\ nstep_of t' = map_nstep f2r t).
  { assert (K : nth_error (map (map_nstep f2r) ord) (2 + k) = Some (map_nstep f2r t)) by (rewrite nth_error_map, Hk; reflexivity).
    rewrite R1, nth_error_map in K. destruct (nth_error (go_ord out) (2 + k)) as [t'|]; [|discriminate]. exists t'. split; auto. cbn [option_map] in K. congruence. }
  destruct K as (t' & K1 & K2).
  destruct (C81_drift_bound ops (real_foot left) (real_foot right) _ _ (map real_step srt) out B Ho D1 D2 I2) with (k := k) (t := t') as (e & E1 & E2).
  - intros s Hs2. assert (K : exists f, (f = left \/ f = right) /\ In s (fp_steps (real_foot f))) by (apply in_app_or in Hs2; destruct Hs2; eauto).
    destruct K as (f & Hf & K). unfold real_foot, foot_at in K. cbn [fp_steps map_nfoot nf_steps] in K. rewrite map_map in K.
    apply in_map_iff in K. destruct K as (x & <- & Kx). cbn. apply (T x). apply in_or_app. destruct Hf; subst; auto.
  - apply sorted_real; [exact HF|exact Hs].
  - exact Q.
  - unfold planned. destruct (go_ord out) as [|x [|y z]]; [discriminate|discriminate|exact K1].
  - exists e. split; auto. assert (K3 : st_time (t_step t') = f2r (n_time t)).
    { apply (f_equal n_time) in K2. exact K2. } rewrite <- K3. exact E2.
Qed.
Print Assumptions C83_phases.

(** The envelope is needed: with a positive sampling period far below the step times the conversion of the number of
    samples to size_t is undefined, with the settings as constructed. *)
Theorem C83_tiny_period_refuted : exists dT left right srt, fin dT = true /\ lt64 fzero dT
  /\ left = built [fzero] "left" /\ right = built [fzero; f1] "right" /\ sorted64 left right srt
  /\ n_generate ieee (initv ieee) true left right fzero dT srt = UB.
Proof.
  exists (fmake 1 (-1074)), (built [fzero] "left"), (built [fzero; f1] "right").
  exists (n_all (nf_steps (built [fzero] "left")) (nf_steps (built [fzero; f1] "right"))).
  split; [vm_compute; reflexivity|]. split; [vm_compute; reflexivity|]. split; auto. split; auto. split.
  { split; [apply Permutation_refl|]. repeat apply SSorted_cons; repeat apply Forall_cons; try apply Forall_nil; try apply SSorted_nil; vm_compute; reflexivity. }
  vm_compute. reflexivity.
Qed.
Print Assumptions C83_tiny_period_refuted.

(** Feet, times and settings that meet the hypotheses of the theorems above. *)
Example C83_example : let left := built [fzero; fmake 2 0] "left" in let right := built [fzero; f1] "right" in
  exists srt, sorted64 left right srt /\ List.Forall finite_args [sRatio f1]
  /\ in_scope (settings ieee [sRatio f1]) left right fzero (fmake 1 0) 16
  /\ f2r (fmake 1 0) <= 2 * f2r (settings ieee [sRatio f1] q_terminal)
  /\ (exists x, In x (nf_steps left ++ nf_steps right) /\ f2r fzero <= f2r (fst x) + f2r (settings ieee [sRatio f1] q_terminal))
  /\ exists a b c r, n_order ieee srt = Ok (a :: b :: c :: r) /\ Bltb (fsub (n_time c) fzero) fzero = false.
Proof.
  intros left right.
  assert (HL : nf_steps left = [(fzero, "left"%string); (fmake 2 0, "left"%string)]).
  { subst left. rewrite built_ok; [reflexivity|]. intros t [<-|[<-|[]]]; vm_compute; reflexivity. }
  assert (HR : nf_steps right = [(fzero, "right"%string); (f1, "right"%string)]).
  { subst right. rewrite built_ok; [reflexivity|]. intros t [<-|[<-|[]]]; vm_compute; reflexivity. }
  assert (T : settings ieee [sRatio f1] q_terminal = initv ieee q_terminal) by reflexivity.
  exists [MkN true 0 fzero "left"; MkN false 0 fzero "right"; MkN false 1 f1 "right"; MkN true 1 (fmake 2 0) "left"].
  destruct f1_ok as (F1 & V1). destruct (fmake_exact 2) as (F2 & V2); [lia|].
  assert (V0 : f2r fzero = 0) by reflexivity.
  assert (VT : f2r (initv ieee q_terminal) = 1).
  { cbn [initv]. change (c1 ieee) with (a_q ieee 1 1). apply (q1_ok 1). lia. }
  rewrite T, VT. change (fmake 1 0) with f1. rewrite V1, V0.
  split.
  { unfold sorted64. rewrite HL, HR. split.
    - unfold n_all. cbn [n_tag app]. apply perm_skip.
      apply (Permutation_trans (l' := [MkN true 1 (fmake 2 0) "left"; MkN false 0 fzero "right"; MkN false 1 f1 "right"])); [|apply Permutation_refl].
      apply Permutation_sym. apply (Permutation_cons_append [MkN false 0 fzero "right"; MkN false 1 f1 "right"] (MkN true 1 (fmake 2 0) "left")).
    - repeat apply SSorted_cons; repeat apply Forall_cons; try apply Forall_nil; try apply SSorted_nil; vm_compute; reflexivity. }
  split.
  { apply Forall_cons; [|apply Forall_nil]. intros x [<-|[]]. exact F1. }
  split.
  { split; rewrite ?HL, ?HR, ?V1, ?V0, ?T, ?VT.
    - split; [exact F1|]. split; [|lra]. change 1 with (bpow radix2 0). apply bpow_le. lia.
    - split; [simpl; lra|]. change 16 with (bpow radix2 4). apply bpow_le. lia.
    - split; [reflexivity|]. rewrite Rabs_R0. lra.
    - intros x Hx. cbn [app In] in Hx.
      destruct Hx as [<-|[<-|[<-|[<-|[]]]]]; cbn [fst]; rewrite ?V0, ?V1, ?V2; (split; [auto|]); apply Rabs_le; lra.
    - lra. }
  split; [lra|]. split.
  { exists (fzero, "left"%string). rewrite HL. split; [left; reflexivity|]. cbn [fst]. rewrite V0. lra. }
  assert (B1 : Beqb f1 (fmake 2 0) = false) by (vm_compute; reflexivity).
  eexists _, _, _, _. unfold n_order. cbn [n_adjacent n_time a_eq ieee]. rewrite B1. cbn [orb n_name].
  (split; [reflexivity|]); vm_compute; reflexivity.
Qed.

(** ** C84: sorting *)
(** addStep keeps the times and std::sort in orderSteps (and in setDesiredPoint of the person following controller)
    compares them with [<], which is a strict weak order on all doubles except NaN, infinities and both zeros included ... *)
Theorem C84_order_partial : forall tsl tsr nl nr, (forall t, In t (tsl ++ tsr) -> number t) ->
  strict_weak_order (@Bltb 53 1024) (map n_time (n_all (nf_steps (built tsl nl)) (nf_steps (built tsr nr)))).
Proof.
  intros tsl tsr nl nr H. apply numbers_ordered. intros x Hx. apply in_map_iff in Hx. destruct Hx as (t & <- & Ht).
  apply in_all in Ht. apply H. apply in_or_app. apply in_app_or in Ht.
  destruct Ht as [Ht|Ht]; [left|right]; apply built_in in Ht; exact Ht.
Qed.
Print Assumptions C84_order_partial.

(** ... but not with the NaN that addStep accepts: two equivalent pairs do not make an equivalent pair. *)
Theorem C84_order_refuted : exists tsl tsr, all_accepted (tsl ++ tsr)
  /\ ~ strict_weak_order (@Bltb 53 1024) (map n_time (n_all (nf_steps (built tsl "left")) (nf_steps (built tsr "right")))).
Proof.
  exists [fzero; fnan], [f1]. split.
  { intros t f [<-|[<-|[<-|[]]]]; vm_compute; reflexivity. }
  assert (E : map n_time (n_all (nf_steps (built [fzero; fnan] "left")) (nf_steps (built [f1] "right"))) = [fzero; fnan; f1]).
  { rewrite !built_ok; [reflexivity| |]; [intros t [<-|[]]|intros t [<-|[<-|[]]]]; vm_compute; reflexivity. }
  rewrite E. intros (_ & _ & T).
  destruct (T fzero fnan f1) as (A & _); [left; reflexivity|right; left; reflexivity|right; right; left; reflexivity|reflexivity..|].
  assert (E2 : Bltb fzero f1 = true) by (vm_compute; reflexivity). rewrite E2 in A. discriminate.
Qed.
Print Assumptions C84_order_refuted.

Example C84_example : forall t, In t ([fzero; f1] ++ [finf; B754_zero true]) -> number t.
Proof. intros t H. simpl in H. repeat (destruct H as [<-|H]; [intros E; discriminate E || (assert (X : is_nan f1 = false) by (vm_compute; reflexivity); rewrite E in X; discriminate)|]). contradiction. Qed.

(** ** C85: NaN *)
(** No setting is NaN after calls without NaN arguments ... (missing: calls with NaN, and the infinite arguments below) *)
Theorem C85_no_nan_partial : forall l q, List.Forall tame l -> number (settings ieee l q).
Proof.
  intros l q H. apply valid_history in H. apply valid_number; auto.
Qed.
Print Assumptions C85_no_nan_partial.

(** ... but no setter refuses NaN: each setting can be made NaN by a call that returns true, ... *)
Theorem C85_setters_refuted : forall q s, exists c, snd (setv ieee c s) = true /\ fst (setv ieee c s) q = fnan.
Proof. intros q s. exists (nan_call q). apply nan_accepted. Qed.
Print Assumptions C85_setters_refuted.

(** ... which is outside its range. *)
Theorem C85_ranges_refuted : exists c, snd (setv ieee c (initv ieee)) = true /\ ~ valid (settings ieee [c]).
Proof.
  exists (sTerminal fnan). destruct (nan_accepted q_terminal (initv ieee)) as (A & E). split; [exact A|].
  intros V. apply v_terminal in V. unfold lt64 in V. unfold settings in V. cbn [fold_left] in V.
  change (nan_call q_terminal) with (@sTerminal f64 fnan) in E. rewrite E in V. discriminate V.
Qed.
Print Assumptions C85_ranges_refuted.

(** Two setters store a NaN for arguments that are not NaN: the ratio +inf, and the length +inf with factor 0. *)
Theorem C85_infinity_refuted : forall s,
  (snd (setv ieee (sRatio finf) s) = true /\ fst (setv ieee (sRatio finf) s) q_share = fnan)
  /\ (snd (setv ieee (sMaxLen2 finf fzero) s) = true /\ fst (setv ieee (sMaxLen2 finf fzero) s) q_maxBack = fnan).
Proof. intros s. repeat split; vm_compute; reflexivity. Qed.
Print Assumptions C85_infinity_refuted.

(** generateFromFootPrints refuses no NaN: a NaN sampling period passes the check [dT <= 0] for all feet and settings
    and ends in the conversion of a NaN to size_t. *)
Theorem C85_period_refuted : forall s pause (left right : nfoot f64) (init : f64) srt ord,
  nf_steps left <> [] -> nf_steps right <> [] -> nf_name left <> nf_name right ->
  (forall (tl : f64) nl ll (tr : f64) nr rr, nf_steps left = (tl, nl) :: ll -> nf_steps right = (tr, nr) :: rr ->
     Bltb init (if Bltb tl tr then tr else tl) = false) ->
  n_order ieee srt = Ok ord ->
  n_generate ieee s pause left right init fnan srt = UB.
Proof. exact nan_dT. Qed.
Print Assumptions C85_period_refuted.

(** The same for an impact time NaN, which addStep accepts. *)
Theorem C85_time_refuted : let left := built [fzero] "left" in let right := built [fzero; fnan] "right" in
  all_accepted [fzero; fnan]
  /\ n_generate ieee (initv ieee) true left right fzero f1 (n_all (nf_steps left) (nf_steps right)) = UB.
Proof. split; [|vm_compute; reflexivity]. intros t f [<-|[<-|[]]]; vm_compute; reflexivity. Qed.
Print Assumptions C85_time_refuted.

(** The same, for all feet with at least three steps and whatever the other settings, after an accepted
    setSwitchOverSwingRatio(+inf) or setSwitchOverSwingRatio(NaN). *)
Theorem C85_share_refuted : forall l ratio pause (left right : nfoot f64) (init dT : f64) srt a b c r,
  ratio = finf \/ ratio = fnan ->
  nf_steps left <> [] -> nf_steps right <> [] -> nf_name left <> nf_name right -> Bleb dT fzero = false ->
  (forall (tl : f64) nl ll (tr : f64) nr rr, nf_steps left = (tl, nl) :: ll -> nf_steps right = (tr, nr) :: rr ->
     Bltb init (if Bltb tl tr then tr else tl) = false) ->
  n_order ieee srt = Ok (a :: b :: c :: r) -> Bltb (fsub (n_time c) init) fzero = false ->
  snd (setv ieee (sRatio ratio) (settings ieee l)) = true
  /\ n_generate ieee (settings ieee (l ++ [sRatio ratio])) pause left right init dT srt = UB.
Proof.
  intros l ratio pause left right init dT srt a b c r Hr HL HR HN HD HI HO HB. split.
  { destruct Hr; subst; vm_compute; reflexivity. }
  eapply nan_share; eauto. unfold settings. rewrite fold_left_app. cbn [fold_left]. destruct Hr; subst; vm_compute; reflexivity.
Qed.
Print Assumptions C85_share_refuted.
