(** C80, C81: the phase computation in IEEE binary64 arithmetic. *)
From Coq Require Import String Reals Lra Lia ZArith List Bool Sorting.Sorted Sorting.Permutation.
From Flocq Require Import Core.
From Verif Require Import Prelude Rounding FootPrint GenPhases GenSpec GenProofs GenProofs2 GenProofs3 GenProofs4 RoundedGen RoundedGenSpec RoundedGenProofs RoundedGenProofs2 RoundedGenProofs3 RoundedGenProofs4 Properties_Generator.
Import ListNotations.
Open Scope R_scope.

(** The model of [GenPhases.v] is the instance of the rounded one with exact arithmetic. *)
Theorem C80_exact_instance : forall g left right init dT srt,
  generate_phases_r (fun x => x) g left right init dT srt = generate_phases g left right init dT srt.
Proof. exact exact_generate. Qed.
Print Assumptions C80_exact_instance.

(** C80: C33 and C34 in binary64. *)
Theorem C80_phases : forall ops left right init dT srt out, List.Forall gop_b64 ops ->
  generate_phases_r b64 (settings64 ops) left right init dT srt = Ok out ->
  let ph := go_ph out in
  length (ph_left ph) = length (ph_right ph)
  /\ hd_error (ph_shift ph) = Some 0%nat
  /\ StronglySorted le (ph_shift ph)
  /\ last (ph_shift ph) 0%nat = length (ph_left ph)
  /\ (forall i a b, nth_error (ph_shift ph) i = Some a -> nth_error (ph_shift ph) (S i) = Some b ->
      exists p q, seg (ph_left ph) a b p /\ seg (ph_right ph) a b q)
  /\ forall i, (i < length (ph_left ph))%nat ->
     exists p q, nth_error (ph_left ph) i = Some p /\ nth_error (ph_right ph) i = Some q /\ complementary p q
     /\ exists cl cr fx, nth_error (go_lContact out) i = Some cl /\ nth_error (go_rContact out) i = Some cr
        /\ nth_error (go_leftFixed out) i = Some fx
        /\ (cl = true \/ cr = true) /\ (cl = false <-> p = Swing) /\ (cr = false <-> q = Swing)
        /\ (if fx then cl = true else cr = true).
Proof.
  intros ops left right init dT srt out Ho H ph. pose proof (good64 ops Ho) as G.
  destruct (generate_r_inv _ b64_rounding _ _ _ _ _ _ _ G H) as (l0 & r0 & _ & _ & _ & _ & _ & _ & _ & _ & P & E1 & E2 & E3 & _).
  pose proof P as P0. destruct P. subst ph; set (ph := go_ph out) in *.
  pose proof (p_size true) as S1. pose proof (p_size false) as S2. simpl in S1, S2.
  split; [congruence|]. split.
  { destruct (ph_shift ph) as [|x l] eqn:E; [simpl in p_len; lia|]. unfold bnd in p_hd. rewrite E in p_hd. simpl in *. congruence. }
  split.
  { apply sorted_nth. intros i j Hij. apply p_mono. lia. }
  split.
  { rewrite S1. unfold bnd. assert (E : (length (ph_shift ph) - 1 = length (planned (go_ord out)) + (length (planned (go_ord out)) + 0) + 1)%nat) by lia.
    rewrite <- E. generalize (ph_shift ph). intros l. destruct l as [|x l] using rev_ind; auto.
    rewrite last_last, app_length, app_nth2 by (simpl; rewrite ?app_length; simpl; lia).
    replace (length l + length [x] - 1 - length l)%nat with 0%nat by (simpl; lia). reflexivity. }
  split.
  { intros i a b Ha Hb.
    assert (Hi : (S i < length (ph_shift ph))%nat) by (apply nth_error_Some; congruence).
    rewrite bnd_nth in Ha by lia. rewrite bnd_nth in Hb by lia. inversion Ha; inversion Hb; subst.
    destruct (interval_phase_s _ _ _ _ _ i P0) as (p & q & _ & Q1 & Q2); [lia|]. eauto. }
  intros i Hi. rewrite S1 in Hi. destruct (find_interval (bnd ph) _ i p_hd Hi) as (k & Hk & Hb).
  destruct (interval_phase_s _ _ _ _ _ k P0 Hk) as (p & q & C & Q1 & Q2).
  specialize (Q1 i Hb). specialize (Q2 i Hb). exists p, q. split; auto. split; auto. split; auto.
  exists (contact_of p), (contact_of q), (fixed_of p). rewrite E1, E2, E3.
  rewrite !nth_error_map, Q1, Q2. simpl. split; auto. split; auto. split; auto.
  destruct C as [[-> ->]|[[-> ->]|[[-> ->]|[-> ->]]]]; simpl; intuition discriminate.
Qed.
Print Assumptions C80_phases.

(** C80: C36 in binary64. *)
Theorem C80_swings_match_steps : forall ops left right init dT srt out, List.Forall gop_b64 ops ->
  sort_result (fp_steps left) (fp_steps right) srt ->
  generate_phases_r b64 (settings64 ops) left right init dT srt = Ok out ->
  let pl := planned (go_ord out) in
  length (ph_shift (go_ph out)) = (2 * length pl + 2)%nat
  /\ (forall k t, nth_error pl k = Some t ->
      nth_error (foot_list (fp_steps left) (fp_steps right) (t_left t)) (t_idx t) = Some (t_step t)
      /\ step_window (go_ph out) k t)
  /\ foot_indices true pl = seq 1 (length (fp_steps left) - 1)
  /\ foot_indices false pl = seq 1 (length (fp_steps right) - 1).
Proof.
  intros ops left right init dT srt out Ho [Pm Sd] H pl. pose proof (good64 ops Ho) as G.
  destruct (generate_r_inv _ b64_rounding _ _ _ _ _ _ _ G H) as (l0 & r0 & H1 & H2 & _ & _ & _ & _ & Hor & L & P & _).
  destruct P. subst pl; set (pl := planned (go_ord out)) in *.
  assert (E : enumerates (fp_steps left) (fp_steps right) (go_ord out)).
  { eapply enumerates_perm; [exact (order_perm _ _ Hor)|]. eapply enumerates_perm; [apply Permutation_sym; exact Pm|apply all_steps_enumerates]. }
  split; auto. split.
  { intros k t Hk. split; auto. destruct t as [tb ti ts]. simpl. apply E. apply nth_error_In in Hk.
    unfold pl, planned in Hk. destruct (go_ord out) as [|x [|y z]]; simpl in *; auto. }
  destruct p_idx as (nl & nr & I1 & I2).
  destruct (indices_complete _ _ _ nl nr E L) as [-> ->]; auto.
  { intros C. rewrite C in H1. discriminate. }
  { intros C. rewrite C in H2. discriminate. }
Qed.
Print Assumptions C80_swings_match_steps.

(** C80: C37 in binary64, for terminal switches of at least half a sampling period and starts not later than the end. *)
Theorem C80_no_wrap : forall ops left right init dT srt, List.Forall gop_b64 ops ->
  sort_result (fp_steps left) (fp_steps right) srt ->
  dT <= 2 * g_endSwitch (settings64 ops) ->
  (exists b i s, nth_error (foot_list (fp_steps left) (fp_steps right) b) i = Some s
                 /\ init <= st_time s + g_endSwitch (settings64 ops)) ->
  generate_phases_r b64 (settings64 ops) left right init dT srt <> UB.
Proof. intros. apply (generate_r_defined _ b64_rounding); auto. apply good64; auto. Qed.
Print Assumptions C80_no_wrap.

(** C80: C38 in binary64. *)
Theorem C80_merge_points : forall ops left right init dT srt out, List.Forall gop_b64 ops ->
  generate_phases_r b64 (settings64 ops) left right init dT srt = Ok out ->
  dT <= 2 * g_endSwitch (settings64 ops) ->
  let ph := go_ph out in
  (forall m, In m (ph_merge ph) -> (m < length (ph_left ph))%nat)
  /\ StronglySorted le (ph_merge ph)
  /\ (forall m, In m (ph_merge ph) -> exists k a b, nth_error (ph_shift ph) (2 * k) = Some a
       /\ nth_error (ph_shift ph) (2 * k + 1) = Some b /\ (a <= m <= b)%nat)
  /\ (no_empty_swing ph -> StronglySorted lt (ph_merge ph)).
Proof.
  intros ops left right init dT srt out Ho H He ph. pose proof (good64 ops Ho) as G.
  destruct (generate_r_inv _ b64_rounding _ _ _ _ _ _ _ G H) as (l0 & r0 & _ & _ & Hd & _ & _ & _ & _ & _ & P & _).
  subst ph; set (ph := go_ph out) in *. destruct P. destruct p_m as (M1 & M2 & M3 & M4).
  { apply (end_samples_r _ b64_rounding); auto. }
  pose proof (p_size true) as S1. cbn [foot_phases] in S1. rewrite S1.
  split; auto. split; auto. split.
  - intros m Hm. destruct (M3 m Hm) as (k & Hk & Hb).
    exists k, (bnd ph (2 * k)), (bnd ph (2 * k + 1)). split; [apply bnd_nth; lia|]. split; [apply bnd_nth; lia|]. auto.
  - intros NE. apply M4. intros k Hk. apply (NE k); apply bnd_nth; lia.
Qed.
Print Assumptions C80_merge_points.

(** C80: settings in binary64.  The switch share is not below 0 nor above 1 ... *)
Theorem C80_settings : forall ops, List.Forall gop_b64 ops ->
  let g := settings64 ops in
  0 <= g_switchPct g <= 1 /\ 0 < g_endSwitch g /\ 0 < g_nomStep g <= g_maxStep g
  /\ 0 <= g_mrBegin g <= g_mrEnd g /\ g_mrEnd g <= 1.
Proof. intros ops Ho g. destruct (good64 ops Ho). auto. Qed.
Print Assumptions C80_settings.

(** ... but, unlike in exact arithmetic (C41), it can reach 1: then no general step has a swing phase. *)
Theorem C80_share_below_one_refuted : exists r, is_b64 r /\ 0 < r /\ g_switchPct (settings64 [GoSwitch r]) = 1
  /\ forall dT t, 0 < dT -> 0 <= t <= 10 -> is_b64 t -> let g := settings64 [GoSwitch r] in
     n_step b64 dT (switch_time_r b64 g (nominal_swing_r b64 g) false true t) = n_step b64 dT t.
Proof. exact share_one. Qed.
Print Assumptions C80_share_below_one_refuted.

(** C81: every walk is accepted whose impacts are at least half a sampling period, plus a bound on the rounding of the
    clock, apart.  [B] bounds the times; the sampling period is not astronomically small compared to it. *)
Theorem C81_walks_accepted : forall ops left right init dT srt gap B, List.Forall gop_b64 ops ->
  bpow radix2 (-900) <= dT <= B -> B <= bpow radix2 50 * dT -> Rabs init <= B ->
  (forall s, In s (fp_steps left ++ fp_steps right) -> Rabs (st_time s) <= B) ->
  fp_name left <> fp_name right -> sort_result (fp_steps left) (fp_steps right) srt ->
  dT <= 2 * g_endSwitch (settings64 ops) -> dT / 2 + bpow radix2 (-49) * B <= gap ->
  walk (fp_steps left) (fp_steps right) init 0 gap ->
  exists out, generate_phases_r b64 (settings64 ops) left right init dT srt = Ok out.
Proof.
  intros ops left right init dT srt gap B Ho [D0 D1] D2 Hi Hb Hn Hs He Hg W.
  eapply (walk_r_accepted (settings64 ops) dT init B); eauto. apply good64; auto.
  rewrite u64_val. change (bpow radix2 (-49)) with (/ 562949953421312) in Hg. lra.
Qed.
Print Assumptions C81_walks_accepted.

(** C81: C35 in binary64.  The clock of the code is compensated at every step, so the error grows only with the
    rounding of the clock itself, at most [B * 2^-50] per step. *)
Theorem C81_drift_bound : forall ops left right init dT srt out B, List.Forall gop_b64 ops ->
  bpow radix2 (-900) <= dT <= B -> B <= bpow radix2 50 * dT -> Rabs init <= B ->
  (forall s, In s (fp_steps left ++ fp_steps right) -> Rabs (st_time s) <= B) ->
  sort_result (fp_steps left) (fp_steps right) srt ->
  generate_phases_r b64 (settings64 ops) left right init dT srt = Ok out ->
  forall k t, nth_error (planned (go_ord out)) k = Some t ->
  exists e, nth_error (ph_shift (go_ph out)) (2 * k + 2) = Some e
  /\ Rabs (init + INR e * dT - st_time (t_step t)) <= dT / 2 + INR (k + 1) * (bpow radix2 (-50) * B).
Proof.
  intros ops left right init dT srt out B Ho [D0 D1] D2 Hi Hb Hs H k t Hk. pose proof (good64 ops Ho) as G.
  destruct (generate_r_inv _ b64_rounding _ _ _ _ _ _ _ G H) as (l0 & r0 & _ & _ & _ & _ & _ & _ & Hor & _ & P & _ & _ & _ & C).
  assert (k < length (planned (go_ord out)))%nat by (apply nth_error_Some; congruence).
  eexists. split; [apply bnd_nth; rewrite (p_len _ _ _ _ _ P); lia|].
  assert (E : enumerates (fp_steps left) (fp_steps right) (go_ord out)).
  { destruct Hs as [Pm _]. eapply enumerates_perm; [exact (order_perm _ _ Hor)|]. eapply enumerates_perm; [apply Permutation_sym; exact Pm|apply all_steps_enumerates]. }
  pose proof (fun Q => create_r_time (settings64 ops) dT init B G D0 D1 D2 Hi _ _ _ _ _ _ Q C k t Hk) as T.
  eapply Rle_trans; [apply T|].
  - intros [b i s] Q. apply Hb. assert (In (MkT b i s) (go_ord out)) as Q1.
    { unfold planned in Q. destruct (go_ord out) as [|x [|y z]]; simpl in *; auto. }
    apply E in Q1. apply nth_error_In in Q1. apply in_or_app. destruct b; auto.
  - rewrite u64_val. replace (k + 1)%nat with (S k) by lia. change (bpow radix2 (-50)) with (/ 1125899906842624). lra.
Qed.
Print Assumptions C81_drift_bound.

(** C81: the half sampling period of C35 alone is not guaranteed in binary64. *)
Theorem C81_half_sample_refuted : exists left right dT srt out t e,
  is_b64 dT /\ times_b64 (fp_steps left ++ fp_steps right) /\ sort_result (fp_steps left) (fp_steps right) srt
  /\ generate_phases_r b64 (settings64 []) left right 0 dT srt = Ok out
  /\ nth_error (planned (go_ord out)) 0 = Some t /\ nth_error (ph_shift (go_ph out)) 2 = Some e
  /\ dT / 2 < Rabs (0 + INR e * dT - st_time (t_step t)).
Proof. exact half_sample_missed. Qed.
Print Assumptions C81_half_sample_refuted.

(** The walk of [GenProofs4] sampled at the double nearest to 10 ms meets the hypotheses of all the theorems above. *)
Example C80_example : exists dT out, dT = b64 (1 / 100) /\ List.Forall gop_b64 [GoSwitch (1 / 4); GoTerminal 2]
  /\ sort_result (fp_steps exL) (fp_steps exR) exSrt
  /\ generate_phases_r b64 (settings64 [GoSwitch (1 / 4); GoTerminal 2]) exL exR 0 dT exSrt = Ok out
  /\ (dT <= 2 * g_endSwitch (settings64 [GoSwitch (1 / 4); GoTerminal 2])) /\ bpow radix2 (-900) <= dT <= 8 /\ 8 <= bpow radix2 50 * dT.
Proof. exact example64. Qed.
