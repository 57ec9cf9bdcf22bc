(** C33-C41: phases, boundaries, merge points and settings of the generator. *)
From Coq Require Import String Reals Lra Lia ZArith List Bool Sorting.Sorted Sorting.Permutation.
From Verif Require Import Prelude Rounding FootPrint GenPhases GenSpec GenProofs GenProofs2 GenProofs3 GenProofs4.
Import ListNotations.
Open Scope R_scope.

(** Settings reached by an arbitrary history of setter calls. *)
Definition settings_after (ops : list gop) : gset := fold_left gset_run ops gset_new.

(** Every theorem below about a successful generation is met by a regular walk. *)
Example generation_nonvacuous :
  sort_result (fp_steps exL) (fp_steps exR) exSrt
  /\ exists out, generate_phases (settings_after []) exL exR 0 (1/100) exSrt = Ok out.
Proof. split; [exact ex_sort|exact ex_accepted]. Qed.

Lemma bnd_nth : forall ph i, (i < length (ph_shift ph))%nat -> nth_error (ph_shift ph) i = Some (bnd ph i).
Proof. intros. apply nth_error_nth'. auto. Qed.

Lemma sorted_nth : forall (l : list nat), (forall i j, (i <= j < length l)%nat -> (nth i l 0 <= nth j l 0)%nat) -> StronglySorted le l.
Proof.
  induction l as [|a l IH]; intros H; constructor.
  - apply IH. intros i j Hij. apply (H (S i) (S j)). simpl. lia.
  - apply Forall_forall. intros x Hx. destruct (In_nth _ _ 0%nat Hx) as (n & Hn & <-). apply (H 0%nat (S n)). simpl. lia.
Qed.

(** C33. *)
Theorem C33_phase_boundaries : forall ops left right init dT srt out,
  generate_phases (settings_after ops) left right init dT srt = Ok out ->
  let ph := go_ph out in
  length (ph_left ph) = length (ph_right ph)
  /\ hd_error (ph_shift ph) = Some 0%nat
  /\ StronglySorted le (ph_shift ph)
  /\ last (ph_shift ph) 0%nat = length (ph_left ph)
  /\ forall i a b, nth_error (ph_shift ph) i = Some a -> nth_error (ph_shift ph) (S i) = Some b ->
     exists p q, seg (ph_left ph) a b p /\ seg (ph_right ph) a b q.
Proof.
  intros ops left right init dT srt out H ph.
  destruct (generate_inv _ _ _ _ _ _ _ (good_history ops) H) as (l0 & r0 & _ & _ & _ & _ & _ & _ & _ & _ & P & _).
  pose proof P as P0. destruct P. subst ph; set (ph := go_ph out) in *.
  pose proof (p_size true) as S1. pose proof (p_size false) as S2. simpl in S1, S2.
  split; [congruence|]. split.
  { destruct (ph_shift ph) as [|x l] eqn:E; [simpl in p_len; lia|]. unfold bnd in p_hd. rewrite E in p_hd. simpl in *. congruence. }
  split.
  { apply sorted_nth. intros i j Hij. apply p_mono. lia. }
  split.
  { rewrite S1. unfold bnd. assert (E : (length (ph_shift ph) - 1 = length (planned (go_ord out)) + (length (planned (go_ord out)) + 0) + 1)%nat) by lia.
    rewrite <- E. generalize (ph_shift ph). intros l. destruct l as [|x l] using rev_ind; auto.
    rewrite last_last, app_length, app_nth2 by (simpl; rewrite ?app_length; simpl; lia).
    replace (length l + length [x] - 1 - length l)%nat with 0%nat by (simpl; lia). reflexivity. }
  intros i a b Ha Hb.
  assert (Hi : (S i < length (ph_shift ph))%nat) by (apply nth_error_Some; congruence).
  rewrite bnd_nth in Ha by lia. rewrite bnd_nth in Hb by lia. inversion Ha; inversion Hb; subst.
  destruct (interval_phase _ _ _ _ _ _ _ i P0) as (p & q & _ & Q1 & Q2); [lia|]. eauto.
Qed.
Print Assumptions C33_phase_boundaries.

(** C34. *)
Theorem C34_complementary : forall ops left right init dT srt out,
  generate_phases (settings_after ops) left right init dT srt = Ok out ->
  let ph := go_ph out in
  forall i, (i < length (ph_left ph))%nat ->
  exists p q, nth_error (ph_left ph) i = Some p /\ nth_error (ph_right ph) i = Some q /\ complementary p q
  /\ exists cl cr fx, nth_error (go_lContact out) i = Some cl /\ nth_error (go_rContact out) i = Some cr
     /\ nth_error (go_leftFixed out) i = Some fx
     /\ (cl = true \/ cr = true) /\ (cl = false <-> p = Swing) /\ (cr = false <-> q = Swing)
     /\ (if fx then cl = true else cr = true).
Proof.
  intros ops left right init dT srt out H ph i Hi.
  destruct (generate_inv _ _ _ _ _ _ _ (good_history ops) H) as (l0 & r0 & _ & _ & _ & _ & _ & _ & _ & _ & P & E1 & E2 & E3).
  subst ph; set (ph := go_ph out) in *. pose proof P as P0. destruct P. pose proof (p_size true) as S1. simpl foot_phases in S1.
  rewrite S1 in Hi. destruct (find_interval (bnd ph) _ i p_hd Hi) as (k & Hk & Hb).
  destruct (interval_phase _ _ _ _ _ _ _ k P0 Hk) as (p & q & C & Q1 & Q2).
  specialize (Q1 i Hb). specialize (Q2 i Hb). exists p, q. split; auto. split; auto. split; auto.
  exists (contact_of p), (contact_of q), (fixed_of p). rewrite E1, E2, E3.
  rewrite !nth_error_map, Q1, Q2. simpl. split; auto. split; auto. split; auto.
  destruct C as [[-> ->]|[[-> ->]|[[-> ->]|[-> ->]]]]; simpl; intuition discriminate.
Qed.
Print Assumptions C34_complementary.

(** C35.  No accumulation of rounding: the bound does not depend on [k]. *)
Theorem C35_no_drift : forall ops left right init dT srt out,
  generate_phases (settings_after ops) left right init dT srt = Ok out ->
  forall k t, nth_error (planned (go_ord out)) k = Some t ->
  exists e, nth_error (ph_shift (go_ph out)) (2 * k + 2) = Some e
  /\ Rabs (init + INR e * dT - st_time (t_step t)) <= dT / 2.
Proof.
  intros ops left right init dT srt out H k t Hk.
  destruct (generate_inv _ _ _ _ _ _ _ (good_history ops) H) as (l0 & r0 & _ & _ & _ & _ & _ & _ & _ & _ & P & _).
  destruct P. assert (k < length (planned (go_ord out)))%nat by (apply nth_error_Some; congruence).
  eexists. split; [apply bnd_nth; lia|]. apply p_time; auto.
Qed.
Print Assumptions C35_no_drift.

(** C36.  [planned (go_ord out)] are the steps after the two initial ones in chronological order (C39). *)
Theorem C36_swings_match_steps : forall ops left right init dT srt out,
  sort_result (fp_steps left) (fp_steps right) srt ->
  generate_phases (settings_after ops) left right init dT srt = Ok out ->
  let pl := planned (go_ord out) in
  length (ph_shift (go_ph out)) = (2 * length pl + 2)%nat
  /\ (forall k t, nth_error pl k = Some t ->
      nth_error (foot_list (fp_steps left) (fp_steps right) (t_left t)) (t_idx t) = Some (t_step t)
      /\ step_window (go_ph out) k t)
  /\ foot_indices true pl = seq 1 (length (fp_steps left) - 1)
  /\ foot_indices false pl = seq 1 (length (fp_steps right) - 1)
  /\ (exists b, seg (foot_phases (go_ph out) b) (bnd (go_ph out) (2 * length pl)) (bnd (go_ph out) (2 * length pl + 1)) SwitchIn
      /\ seg (foot_phases (go_ph out) (negb b)) (bnd (go_ph out) (2 * length pl)) (bnd (go_ph out) (2 * length pl + 1)) SwitchOut
      /\ forall t, nth_error pl (length pl - 1) = Some t -> b = t_left t).
Proof.
  intros ops left right init dT srt out [Pm Sd] H pl.
  destruct (generate_inv _ _ _ _ _ _ _ (good_history ops) H) as (l0 & r0 & H1 & H2 & _ & _ & _ & _ & Ho & L & P & _).
  destruct P. subst pl; set (pl := planned (go_ord out)) in *.
  assert (E : enumerates (fp_steps left) (fp_steps right) (go_ord out)).
  { eapply enumerates_perm; [exact (order_perm _ _ Ho)|]. eapply enumerates_perm; [apply Permutation_sym; exact Pm|apply all_steps_enumerates]. }
  split; auto. split.
  { intros k t Hk. split; auto. destruct t as [tb ti ts]. simpl. apply E. apply nth_error_In in Hk.
    unfold pl, planned in Hk. destruct (go_ord out) as [|x [|y z]]; simpl in *; auto. }
  destruct p_idx as (nl & nr & I1 & I2).
  destruct (indices_complete _ _ _ nl nr E L) as [-> ->]; auto.
  { intros C. rewrite C in H1. discriminate. }
  { intros C. rewrite C in H2. discriminate. }
  split; auto. split; auto. exists (last_mover (st_time l0) (st_time r0) pl). destruct p_end as [W1 W2]. split; auto. split; auto.
  intros t Ht. unfold last_mover. destruct pl as [|x l] eqn:Epl using rev_ind; [discriminate|].
  rewrite rev_app_distr. simpl. rewrite app_length in Ht. simpl in Ht. rewrite nth_error_app2 in Ht by lia.
  replace (length l + 1 - 1 - length l)%nat with 0%nat in Ht by lia. simpl in Ht. congruence.
Qed.
Print Assumptions C36_swings_match_steps.

(** C36, C40: every regular walk (planned impacts after [init] and at least half a sampling period
    apart, terminal switch at least half a sampling period) is accepted, whatever [std::sort] does with
    coinciding initial times. *)
Theorem C36_walks_accepted : forall ops left right init dT srt gap, 0 < dT ->
  fp_name left <> fp_name right -> sort_result (fp_steps left) (fp_steps right) srt ->
  dT <= 2 * g_endSwitch (settings_after ops) -> dT / 2 <= gap ->
  walk (fp_steps left) (fp_steps right) init 0 gap ->
  exists out, generate_phases (settings_after ops) left right init dT srt = Ok out.
Proof. intros. eapply walk_accepted; eauto. apply good_history. Qed.
Print Assumptions C36_walks_accepted.

(** C37.  No conversion or unsigned subtraction goes wrong, for any foot prints (regular or not), if the
    terminal switch lasts at least half a sampling period and the start is not later than the end of the
    whole trajectory. *)
Theorem C37_no_wrap_partial : forall ops left right init dT srt,
  sort_result (fp_steps left) (fp_steps right) srt ->
  dT <= 2 * g_endSwitch (settings_after ops) ->
  (exists b i s, nth_error (foot_list (fp_steps left) (fp_steps right) b) i = Some s
                 /\ init <= st_time s + g_endSwitch (settings_after ops)) ->
  generate_phases (settings_after ops) left right init dT srt <> UB.
Proof. intros. apply generate_defined; auto. apply good_history. Qed.
Print Assumptions C37_no_wrap_partial.

(** C37, the counters named in the property: for every accepted setting and every step. *)
Theorem C37_switch_within_step : forall ops dT first same t, 0 < dT -> 0 <= t ->
  let g := settings_after ops in
  let sw := switch_time g (g_nomStep g - g_switchPct g * g_nomStep g) first same t in
  (nround (sw * (1 - g_mrEnd g) / dT) <= nround (sw * (1 - g_mrBegin g) / dT) <= nround (sw / dT))%nat
  /\ (nround (sw / dT) <= nround (t / dT))%nat.
Proof.
  intros ops dT first same t Hd Ht g sw. pose proof (good_history ops) as G. fold (settings_after ops) in G. fold g in G.
  pose proof (switch_time_bounds g first same t G Ht) as [B1 B2]. cbv zeta in B1, B2. fold sw in B1, B2.
  destruct G as [_ _ _ [[M1 M2] M3]].
  split; [split|]; apply nround_mono; split; try (apply div_nonneg; auto; try (apply Rmult_le_pos; lra)); apply div_mono; auto.
  - apply Rmult_le_compat_l; lra.
  - rewrite <- (Rmult_1_r sw) at 2. apply Rmult_le_compat_l; lra.
Qed.
Print Assumptions C37_switch_within_step.

(** C37, finding: when [initTime] is later than the last impact plus the terminal switch, the size
    estimate of line 116 converts a negative number to size_t instead of the call returning false. *)
Theorem C37_late_start_refuted : exists left right srt,
  sort_result (fp_steps left) (fp_steps right) srt
  /\ generate_phases (settings_after []) left right 10 1 srt = UB.
Proof. exists lateL, lateR, lateSrt. split; [exact late_sort|exact late_ub]. Qed.
Print Assumptions C37_late_start_refuted.

(** C38, for terminal switches of at least half a sampling period: merge points are trajectory indices,
    never decrease, and lie between the beginning and the end of a double support (2k-th interval). *)
Theorem C38_merge_points_partial : forall ops left right init dT srt out,
  generate_phases (settings_after ops) left right init dT srt = Ok out ->
  dT <= 2 * g_endSwitch (settings_after ops) ->
  let ph := go_ph out in
  (forall m, In m (ph_merge ph) -> (m < length (ph_left ph))%nat)
  /\ StronglySorted le (ph_merge ph)
  /\ (forall m, In m (ph_merge ph) -> exists k a b, nth_error (ph_shift ph) (2 * k) = Some a
       /\ nth_error (ph_shift ph) (2 * k + 1) = Some b /\ (a <= m <= b)%nat).
Proof.
  intros ops left right init dT srt out H He ph.
  destruct (generate_inv _ _ _ _ _ _ _ (good_history ops) H) as (l0 & r0 & _ & _ & Hd & _ & _ & _ & _ & _ & P & _).
  subst ph; set (ph := go_ph out) in *. destruct P. destruct p_m as (M1 & M2 & M3 & _).
  { apply end_samples; auto. apply good_history. }
  pose proof (p_size true) as S1. cbn [foot_phases] in S1. rewrite S1.
  split; auto. split; auto. intros m Hm. destruct (M3 m Hm) as (k & Hk & Hb).
  exists k, (bnd ph (2 * k)), (bnd ph (2 * k + 1)). split; [apply bnd_nth; lia|]. split; [apply bnd_nth; lia|]. auto.
Qed.
Print Assumptions C38_merge_points_partial.

(** C38, strict order: when planned impacts are far enough apart that every swing has a sample, every
    swing phase is non-empty and merge points strictly increase. *)
Theorem C38_merge_points_strict_partial : forall ops left right init dT srt out lead gap,
  let g := settings_after ops in
  sort_result (fp_steps left) (fp_steps right) srt ->
  walk (fp_steps left) (fp_steps right) init lead gap ->
  dT <= (1 - g_switchPct g) * g_nomStep g ->
  dT <= (1 - g_switchPct g) * (gap - dT / 2) -> dT <= (1 - g_switchPct g) * lead ->
  dT <= 2 * g_endSwitch g ->
  generate_phases g left right init dT srt = Ok out ->
  StronglySorted lt (ph_merge (go_ph out))
  /\ forall k, (k < length (planned (go_ord out)))%nat -> (bnd (go_ph out) (2 * k + 1) < bnd (go_ph out) (2 * k + 2))%nat.
Proof.
  intros ops left right init dT srt out lead gap g Hs W H1 H2 H3 He H.
  pose proof (good_history ops) as G. fold (settings_after ops) in G. fold g in G.
  pose proof (generate_swings _ _ _ _ _ _ _ _ _ G Hs W H1 H2 H3 H) as SW.
  destruct (generate_inv _ _ _ _ _ _ _ G H) as (l0 & r0 & _ & _ & Hd & _ & _ & _ & _ & _ & P & _).
  destruct P. destruct p_m as (_ & _ & _ & M4); [apply end_samples; auto|]. auto.
Qed.
Print Assumptions C38_merge_points_strict_partial.

Example C38_strict_nonvacuous : let g := settings_after [] in
  walk (fp_steps exL) (fp_steps exR) 0 1 1 /\ 1/100 <= (1 - g_switchPct g) * g_nomStep g
  /\ 1/100 <= (1 - g_switchPct g) * (1 - (1/100) / 2) /\ 1/100 <= (1 - g_switchPct g) * 1 /\ 1/100 <= 2 * g_endSwitch g.
Proof. simpl. split; [exact ex_walk|]. lra. Qed.

(** C38, finding: a terminal switch shorter than half a sampling period is accepted, and then the last
    merge point lies inside a single-support phase. *)
Theorem C38_double_support_refuted : exists ops left right srt out m,
  sort_result (fp_steps left) (fp_steps right) srt
  /\ generate_phases (settings_after ops) left right 0 1 srt = Ok out
  /\ In m (ph_merge (go_ph out)) /\ nth_error (ph_right (go_ph out)) m = Some Swing
  /\ nth_error (ph_right (go_ph out)) (m - 1) = Some Swing.
Proof.
  destruct short_run as (out & H & Hs & Hr & Hl & Hm & _).
  exists [GoTerminal (1/10)], shortL, shortR, shortSrt, out, 3%nat.
  split; [exact short_sort|]. split; [exact H|]. rewrite Hm, Hr. simpl. auto.
Qed.
Print Assumptions C38_double_support_refuted.

(** C38, finding: with steps of one sample a merge point is reported twice (default settings). *)
Theorem C38_strict_order_refuted : exists left right srt out,
  sort_result (fp_steps left) (fp_steps right) srt
  /\ generate_phases (settings_after []) left right 0 1 srt = Ok out
  /\ ~ NoDup (ph_merge (go_ph out)).
Proof.
  destruct dup_run as (out & H & Hm). exists dupL, dupR, dupSrt, out. split; [exact dup_sort|]. split; [exact H|].
  rewrite Hm. intros N. inversion N as [|? ? _ N2]. inversion N2 as [|? ? N3 _]. apply N3. simpl. auto.
Qed.
Print Assumptions C38_strict_order_refuted.

(** C39. *)
Theorem C39_ordered_without_loss : forall left right srt ord,
  sort_result left right srt -> order_steps srt = Ok ord ->
  enumerates left right ord
  /\ StronglySorted (fun a b => st_time (t_step a) <= st_time (t_step b)) ord
  /\ StronglySorted (fun a b => st_time (t_step a) < st_time (t_step b)) (planned ord)
  /\ (forall a b c rest, ord = a :: b :: c :: rest -> st_time (t_step a) = st_time (t_step b) ->
      st_name (t_step a) <> st_name (t_step b) -> st_name (t_step b) <> st_name (t_step c)).
Proof.
  intros left right srt ord [P Sd] H. split; [|split; [|split]].
  - eapply enumerates_perm; [exact (order_perm _ _ H)|]. eapply enumerates_perm; [apply Permutation_sym; exact P|apply all_steps_enumerates].
  - exact (order_sorted _ _ Sd H).
  - eapply order_strict; eauto.
  - intros a b c rest ->. apply (order_alternates srt a b c rest); auto.
Qed.
Print Assumptions C39_ordered_without_loss.

(** C39: refused exactly when two of the steps after the first two (in time) coincide. *)
Theorem C39_refused_iff_duplicate : forall left right srt, (1 <= length left)%nat -> (1 <= length right)%nat ->
  sort_result left right srt ->
  order_steps srt <> UB /\
  (order_steps srt = Fail <-> ~ StronglySorted (fun a b => st_time (t_step a) < st_time (t_step b)) (planned srt)).
Proof.
  intros left right srt Hl Hr [P Sd].
  assert (L : (2 <= length srt)%nat) by (rewrite (Permutation_length P), all_steps_length; lia).
  split; [apply order_defined; auto|].
  destruct srt as [|a [|b tl]]; simpl in L; try lia. unfold planned. cbn [List.tl].
  assert (St : StronglySorted tle tl) by (inversion Sd as [|? ? Q ?]; inversion Q; auto).
  simpl. destruct (adjacent_equal tl) eqn:A.
  - split; auto. intros _ C. revert A C. clear. induction tl as [|x tl IH]; [discriminate|].
    destruct tl as [|y tl]; [discriminate|]. intros A C. inversion C as [|? ? C1 F]; subst. simpl in A. apply orb_true_iff in A. destruct A as [A|A].
    + apply Reqb_true in A. inversion F; subst. lra.
    + apply IH; auto.
  - split.
    + destruct tl; [discriminate|]. destruct (_ && _); discriminate.
    + intros C. exfalso. apply C. apply adjacent_distinct; auto.
Qed.
Print Assumptions C39_refused_iff_duplicate.

(** C40, what holds: at every iteration the indices used are at most one past the end of the lists. *)
Theorem C40_one_past_the_end_partial : forall ops left right init dT srt out pre post nl nr sf s,
  sort_result (fp_steps left) (fp_steps right) srt ->
  generate_phases (settings_after ops) left right init dT srt = Ok out ->
  planned (go_ord out) = pre ++ post ->
  let g := settings_after ops in
  cp_loop g dT (g_nomStep g - g_switchPct g * g_nomStep g) nl nr sf 2 pre
    (MkCP [] [] [0%nat] 0 [0%nat] 1 1 init None false) = Ok s ->
  (c_li s <= length (fp_steps left))%nat /\ (c_ri s <= length (fp_steps right))%nat.
Proof.
  intros ops left right init dT srt out pre post nl nr sf s [P Sd] H Hp g Hc.
  destruct (generate_inv _ _ _ _ _ _ _ (good_history ops) H) as (l0 & r0 & H1 & H2 & Hd & _ & _ & _ & Ho & L & _).
  assert (I : Inv dT init pre s).
  { change pre with ([] ++ pre). eapply Inv_loop; [apply (good_history ops)|exact Hd| |apply Inv_0|exact Hc]. reflexivity. }
  destruct (go_ord out) as [|a [|b pl]] eqn:Eo; simpl in L; try lia. unfold planned in Hp. cbn [tl] in Hp. subst pl.
  eapply index_bound; [| | |exact I].
  - eapply enumerates_perm; [rewrite <- Eo in Ho; rewrite <- Eo; exact (order_perm _ _ Ho)|]. eapply enumerates_perm; [apply Permutation_sym; exact P|apply all_steps_enumerates].
  - intros C. rewrite C in H1. discriminate.
  - intros C. rewrite C in H2. discriminate.
Qed.
Print Assumptions C40_one_past_the_end_partial.

(** C40, finding: the element one past the end is addressed in ordinary use (left foot: initial step
    only; right foot: one planned step). *)
Theorem C40_inside_lists_refuted : exists left right srt out,
  sort_result (fp_steps left) (fp_steps right) srt
  /\ generate_phases (settings_after [GoTerminal (1/10)]) left right 0 1 srt = Ok out
  /\ ph_ub (go_ph out) = true.
Proof.
  destruct short_run as (out & H & _ & _ & _ & _ & U).
  exists shortL, shortR, shortSrt, out. split; [exact short_sort|]. split; [exact H|exact U].
Qed.
Print Assumptions C40_inside_lists_refuted.

(** C41. *)
Theorem C41_settings_invariant : forall ops, good_settings (settings_after ops).
Proof. exact good_history. Qed.
Print Assumptions C41_settings_invariant.

Theorem C41_refused_changes_nothing : forall g o, gset_ok g o = false -> gset_run g o = g.
Proof. exact refused_keeps. Qed.
Print Assumptions C41_refused_changes_nothing.

(** C41: an accepted call changes only the settings it names, to the requested values. *)
Theorem C41_accepted_sets : forall g o, gset_ok g o = true ->
  let g' := gset_run g o in
  match o with
  | GoSwitch r => g_switchPct g' = r / (1 + r) /\ g' = MkG (g_switchPct g') (g_endSwitch g) (g_maxStep g) (g_nomStep g) (g_pause g) (g_mrBegin g) (g_mrEnd g)
  | GoTerminal t => g' = MkG (g_switchPct g) t (g_maxStep g) (g_nomStep g) (g_pause g) (g_mrBegin g) (g_mrEnd g)
  | GoPauseActive b => g' = MkG (g_switchPct g) (g_endSwitch g) (g_maxStep g) (g_nomStep g) b (g_mrBegin g) (g_mrEnd g)
  | GoDisablePause => g' = MkG (g_switchPct g) (g_endSwitch g) (g_maxStep g) (g_nomStep g) false (g_mrBegin g) (g_mrEnd g)
  | GoPause m n => g' = MkG (g_switchPct g) (g_endSwitch g) m n (g_pause g) (g_mrBegin g) (g_mrEnd g)
  | GoMerge b e => g' = MkG (g_switchPct g) (g_endSwitch g) (g_maxStep g) (g_nomStep g) (g_pause g) b e
  end.
Proof.
  intros g o H. destruct o; simpl in *; auto;
    unfold set_switchRatio, set_terminalSwitch, set_pauseConditions, set_mergeRatio in *;
    revert H; rcases; simpl; intros; try discriminate; auto.
Qed.
Print Assumptions C41_accepted_sets.

Example C41_nonvacuous : gset_ok gset_new (GoPause 1 2) = false /\ gset_ok gset_new (GoMerge (1/4) (3/4)) = true.
Proof. simpl. unfold set_pauseConditions, set_mergeRatio. split; rcases; simpl; auto; lra. Qed.
