(** C44-C46, C64: feet trajectories. *)
From Coq Require Import String Reals Lra Lia ZArith List Bool Sorting.Sorted Sorting.Permutation.
From Verif Require Import Prelude EvalTac Rounding FootPrint GenPhases GenSpec GenProofs GenProofs2 GenProofs3 GenProofs4
  EllipseProofs Properties_Generator FeetTraj FeetSpec FeetProofs FeetProofs2 FeetProofs3.
Import ListNotations.
Open Scope R_scope.

Lemma phase_window : forall g dT init fl fr pl ph b i, PhOk g dT init fl fr pl ph -> (i < bnd ph (2 * length pl + 1))%nat ->
  (forall k t, nth_error pl k = Some t -> t_left t = b -> ~ (bnd ph (2 * k + 1) <= i < bnd ph (2 * k + 2))%nat) ->
  nth_error (foot_phases ph b) i <> Some Swing.
Proof.
  intros g dT init fl fr pl ph b i P Hi H C. destruct P.
  assert (W : forall m, (m <= 2 * length pl + 1)%nat -> (bnd ph m <= i)%nat \/ exists k, (k < m)%nat /\ (bnd ph k <= i < bnd ph (S k))%nat).
  { induction m as [|m IH]; intros Hm; [left; rewrite p_hd; lia|]. destruct (IH ltac:(lia)) as [E|(k & K1 & K2)].
    - destruct (Nat.lt_ge_cases i (bnd ph (S m))); [right; exists m; lia|left; lia].
    - right. exists k. split; [lia|auto]. }
  destruct (W (2 * length pl + 1)%nat ltac:(lia)) as [E|(k & K1 & K2)]; [lia|].
  destruct (Nat.eq_dec k (2 * length pl)) as [->|Hk].
  - replace (S (2 * length pl)) with (2 * length pl + 1)%nat in K2 by lia. destruct p_end as [E1 E2].
    destruct (Bool.bool_dec (last_mover fl fr pl) b) as [Eb|Eb].
    + rewrite Eb in E1. rewrite (E1 i K2) in C. discriminate.
    + assert (En : negb (last_mover fl fr pl) = b) by (destruct (last_mover _ _ _), b; cbn; congruence). rewrite En in E2.
      rewrite (E2 i K2) in C. discriminate.
  - destruct (Nat.Even_or_Odd k) as [[m Em]|[m Em]]; subst k.
    + assert (Hm : (m < length pl)%nat) by lia. destruct (nth_error pl m) as [t|] eqn:Et; [|apply nth_error_None in Et; lia].
      destruct (p_win m t Et) as (W1 & W2 & _). replace (S (2 * m)) with (2 * m + 1)%nat in K2 by lia.
      destruct (Bool.bool_dec (t_left t) b) as [Eb|Eb].
      * rewrite Eb in W1. rewrite (W1 i K2) in C. discriminate.
      * assert (En : negb (t_left t) = b) by (destruct (t_left t), b; cbn; congruence). rewrite En in W2. rewrite (W2 i K2) in C. discriminate.
    + assert (Hm : (m < length pl)%nat) by lia. destruct (nth_error pl m) as [t|] eqn:Et; [|apply nth_error_None in Et; lia].
      destruct (p_win m t Et) as (_ & _ & W1 & W2). replace (S (2 * m + 1)) with (2 * m + 2)%nat in K2 by lia.
      destruct (Bool.bool_dec (t_left t) b) as [Eb|Eb].
      * exact (H m t Et Eb K2).
      * assert (En : negb (t_left t) = b) by (destruct (t_left t), b; cbn; congruence). rewrite En in W2. rewrite (W2 i K2) in C. discriminate.
Qed.

(** What the trajectory of a foot has to be: still on the last reached step outside swing; during swing the sample of
    the interpolation [sw] between the step left behind and the one being reached. *)
Definition follows (sw : nat -> step -> step -> list sample) (first : step) (pl : list tstep) (ph : phases) (b : bool) (T : list sample) : Prop :=
  length T = length (foot_phases ph b)
  /\ forall i, (i < length T)%nat -> exists s, stands_on first pl ph b i s
     /\ (nth_error (foot_phases ph b) i <> Some Swing -> nth_error T i = Some (rest_at s))
     /\ (nth_error (foot_phases ph b) i = Some Swing -> exists k t, nth_error pl k = Some t /\ t_left t = b
          /\ (bnd ph (2 * k + 1) <= i < bnd ph (2 * k + 2))%nat
          /\ nth_error T i = nth_error (sw (bnd ph (2 * k + 2) - bnd ph (2 * k + 1))%nat s (t_step t)) (i - bnd ph (2 * k + 1))).

Lemma motion_follows : forall g dT init fl fr pl ph sw first b, PhOk g dT init fl fr pl ph -> (forall n s0 s1, length (sw n s0 s1) = n) ->
  follows sw first pl ph b (motion (bnd ph) b sw 0 first pl).
Proof.
  intros g dT init fl fr pl ph sw first b P Hsw. pose proof P as P0. destruct P.
  assert (L : length (motion (bnd ph) b sw 0 first pl) = bnd ph (2 * length pl + 1)).
  { rewrite (motion_length (bnd ph) b sw Hsw pl 0 first (length pl)); auto. change (2 * 0)%nat with 0%nat. rewrite p_hd. lia. }
  split; [rewrite L, p_size; reflexivity|]. intros i Hi. rewrite L in Hi.
  destruct (motion_at (bnd ph) b sw Hsw pl 0 first (length pl) i eq_refl p_mono) as (s & Hs & Hr).
  { change (2 * 0)%nat with 0%nat. rewrite p_hd. lia. }
  change (2 * 0)%nat with 0%nat in Hr. rewrite p_hd, Nat.sub_0_r in Hr. cbn [Nat.add] in Hr.
  exists s. split; [exact Hs|]. destruct Hr as [(Hn & Hr)|(k & t & E1 & E2 & E3 & E4)].
  - split; auto. intros C. exfalso. exact (phase_window _ _ _ _ _ _ _ b i P0 Hi Hn C).
  - split.
    + intros C. exfalso. apply C. destruct (p_win k t E1) as (_ & _ & W & _). rewrite E2 in W. apply W. exact E3.
    + intros _. exists k, t. auto.
Qed.

Lemma generated_feet : forall ops left right init dT srt out (swing : nat -> step -> step -> res (list sample)) sw,
  sort_result (fp_steps left) (fp_steps right) srt ->
  generate_phases (settings_after ops) left right init dT srt = Ok out -> no_empty_phase (go_ph out) ->
  (forall n s0 s1, swing n s0 s1 = Ok (sw n s0 s1)) -> (forall n s0 s1, length (sw n s0 s1) = n) ->
  forall b, exists first T, hd_error (foot_list (fp_steps left) (fp_steps right) b) = Some first
    /\ feet_loop swing (foot_phases (go_ph out) b) (tl (ph_shift (go_ph out))) 0 (foot_list (fp_steps left) (fp_steps right) b) = Ok T
    /\ follows sw first (planned (go_ord out)) (go_ph out) b T.
Proof.
  intros ops left right init dT srt out swing sw Hs H Hne Hsw Hl b.
  destruct (C36_swings_match_steps ops left right init dT srt out Hs H) as (_ & Hst & Hil & Hir & _).
  destruct (generate_inv _ _ _ _ _ _ _ (good_history ops) H) as (l0 & r0 & H1 & H2 & _ & _ & _ & _ & _ & _ & P & _).
  assert (F : exists first, hd_error (foot_list (fp_steps left) (fp_steps right) b) = Some first) by (destruct b; cbn [foot_list]; eauto).
  destruct F as (first & F). exists first. eexists. split; [exact F|]. split.
  - eapply feet_walk with (l0 := l0) (r0 := r0); eauto. intros k t Hk. apply (Hst k t Hk).
  - eapply motion_follows; eauto.
Qed.

(** C44 and C45 for a whole walk: if no phase is empty the computation of the feet trajectories succeeds; outside swing
    the foot is still on the last reached step; during swing it is on the way to the next one.
    Missing for the full C44: walks with an empty phase, see [C44_empty_switch_refuted]. *)
Theorem C44_still_outside_swing_partial : forall ops fops left right init dT srt out,
  sort_result (fp_steps left) (fp_steps right) srt ->
  generate_phases (settings_after ops) left right init dT srt = Ok out -> no_empty_phase (go_ph out) ->
  let c := feet_history fops in let ph := go_ph out in let pl := planned (go_ord out) in
  0 <= f_height c ->
  exists TL TR l0 r0, feet_compute c dT (fp_steps left) (fp_steps right) (ph_left ph) (ph_right ph) (ph_shift ph) = Ok (TL, TR)
  /\ hd_error (fp_steps left) = Some l0 /\ hd_error (fp_steps right) = Some r0
  /\ forall b : bool, let T := if b then TL else TR in let first := if b then l0 else r0 in
     length T = length (foot_phases ph b)
     /\ forall i, (i < length T)%nat -> exists (s : step) (x : sample), stands_on first pl ph b i s /\ nth_error T i = Some x
        /\ (nth_error (foot_phases ph b) i <> Some Swing -> x = rest_at s)
        /\ (nth_error (foot_phases ph b) i = Some Swing ->
             exists k t, nth_error pl k = Some t /\ t_left t = b /\ (bnd ph (2 * k + 1) <= i < bnd ph (2 * k + 2))%nat
               /\ on_the_way (f_height c) s (t_step t) x).
Proof.
  intros ops fops left right init dT srt out Hs H Hne c ph pl Hh. pose proof (feet_history_ok fops) as Hc. fold c in Hc.
  assert (Hd : 0 < dT). { destruct (generate_inv _ _ _ _ _ _ _ (good_history ops) H) as (? & ? & _ & _ & D & _). auto. }
  set (sw := fun n s0 s1 => match swing_minjerk c dT n s0 s1 with Ok o => o | _ => [] end).
  assert (E : forall n s0 s1, swing_minjerk c dT n s0 s1 = Ok (sw n s0 s1) /\ length (sw n s0 s1) = n
              /\ forall k x, nth_error (sw n s0 s1) k = Some x -> swing_inv c dT n s0 s1 k x).
  { intros n s0 s1. destruct (swing_ok c dT n s0 s1 Hc Hd) as (o & Eo & Lo & Po). unfold sw. rewrite Eo. auto. }
  destruct (generated_feet ops left right init dT srt out (swing_minjerk c dT) sw Hs H Hne
              (fun n a b => proj1 (E n a b)) (fun n a b => proj1 (proj2 (E n a b))) true) as (l0 & TL & F1 & EL & FL).
  destruct (generated_feet ops left right init dT srt out (swing_minjerk c dT) sw Hs H Hne
              (fun n a b => proj1 (E n a b)) (fun n a b => proj1 (proj2 (E n a b))) false) as (r0 & TR & F2 & ER & FR).
  exists TL, TR, l0, r0. split.
  { unfold feet_compute, interpolate_foot. rewrite (rltb_f (f_height c) 0) by lra. cbn [foot_list foot_phases] in EL, ER.
    fold ph in EL, ER. rewrite EL. cbn [rbind]. rewrite ER. reflexivity. }
  split; [exact F1|]. split; [exact F2|]. intros b T first.
  assert (FT : follows sw first pl ph b T) by (destruct b; assumption). destruct FT as [LT FT]. split; [exact LT|].
  intros i Hi. destruct (FT i Hi) as (s & S1 & S2 & S3).
  destruct (nth_error T i) as [x|] eqn:Ex; [|apply nth_error_None in Ex; lia]. exists s, x. split; [exact S1|]. split; [reflexivity|]. split.
  - intros C. specialize (S2 C). congruence.
  - intros C. destruct (S3 C) as (k & t & K1 & K2 & K3 & K4). exists k, t. repeat (split; [assumption|]). symmetry in K4.
    eapply swing_on_the_way; [exact Hc|exact Hh|exact Hd| |eapply (proj2 (proj2 (E _ _ _))); exact K4]. lia.
Qed.
Print Assumptions C44_still_outside_swing_partial.

Example C44_example : exists out, generate_phases (settings_after []) stepL stepR 0 1 stepSrt = Ok out
  /\ no_empty_phase (go_ph out) /\ 0 <= f_height (feet_history [FHeight (5/100)])
  /\ nth_error (ph_right (go_ph out)) 2 = Some Swing /\ nth_error (ph_right (go_ph out)) 4 = Some SwitchIn.
Proof.
  destruct step_run as (out & H & Ho & Hs & Hr & Hl). exists out. split; [exact H|]. split; [apply step_no_empty; exact Hs|].
  split; [cbn; rewrite rltb_f by lra; cbn; lra|]. rewrite Hr. split; reflexivity.
Qed.

(** The same for the cubic spline generator, whose swing interpolation is external. *)
Theorem C44_spline_still_outside_swing_partial : forall ops left right init dT srt out (swing : nat -> step -> step -> res (list sample)) sw,
  sort_result (fp_steps left) (fp_steps right) srt ->
  generate_phases (settings_after ops) left right init dT srt = Ok out -> no_empty_phase (go_ph out) ->
  (forall n s0 s1, swing n s0 s1 = Ok (sw n s0 s1)) -> (forall n s0 s1, length (sw n s0 s1) = n) ->
  forall b, exists first T, hd_error (foot_list (fp_steps left) (fp_steps right) b) = Some first
    /\ feet_loop swing (foot_phases (go_ph out) b) (tl (ph_shift (go_ph out))) 0 (foot_list (fp_steps left) (fp_steps right) b) = Ok T
    /\ length T = length (foot_phases (go_ph out) b)
    /\ forall i, (i < length T)%nat -> nth_error (foot_phases (go_ph out) b) i <> Some Swing ->
       exists s, stands_on first (planned (go_ord out)) (go_ph out) b i s /\ nth_error T i = Some (rest_at s).
Proof.
  intros ops left right init dT srt out swing sw Hs H Hne Hsw Hl b.
  destruct (generated_feet ops left right init dT srt out swing sw Hs H Hne Hsw Hl b) as (first & T & F & E & L & FT).
  exists first, T. repeat (split; [assumption|]). intros i Hi C. destruct (FT i Hi) as (s & S1 & S2 & _). exists s. auto.
Qed.
Print Assumptions C44_spline_still_outside_swing_partial.

(** Walks to which the previous theorems apply: the steps are far enough apart compared with the sampling time. *)
Theorem C44_regular_walks : forall ops left right init dT srt out lead gap,
  let g := settings_after ops in
  sort_result (fp_steps left) (fp_steps right) srt ->
  walk (fp_steps left) (fp_steps right) init lead gap ->
  let p := Rmin (g_switchPct g) (1 - g_switchPct g) in
  dT <= p * g_nomStep g -> dT <= p * (gap - dT / 2) -> dT <= p * lead -> dT <= 2 * g_endSwitch g ->
  generate_phases g left right init dT srt = Ok out -> no_empty_phase (go_ph out).
Proof.
  intros ops left right init dT srt out lead gap g Hs W p H1 H2 H3 H4 H.
  pose proof (good_history ops) as G. fold (settings_after ops) in G. fold g in G.
  assert (Hd : 0 < dT). { destruct (generate_inv _ _ _ _ _ _ _ G H) as (? & ? & _ & _ & D & _). auto. }
  pose proof (good_pct g G) as Pc. pose proof (good_nom g G).
  assert (P1 : p <= g_switchPct g) by apply Rmin_l. assert (P2 : p <= 1 - g_switchPct g) by apply Rmin_r.
  assert (P0 : 0 < p) by (apply Rmin_glb_lt; lra).
  assert (Q1 : 0 < gap - dT / 2) by (destruct (Rle_or_lt (gap - dT / 2) 0) as [C|C]; auto; nra).
  assert (Q2 : 0 < lead) by (destruct (Rle_or_lt lead 0) as [C|C]; auto; nra).
  assert (M : forall x y, p <= x -> 0 < y -> dT <= p * y -> dT <= x * y).
  { intros x y A B C. assert (p * y <= x * y) by (apply Rmult_le_compat_r; lra). lra. }
  eapply (walk_not_empty g left right init dT srt out lead gap); auto; try (apply M; lra).
Qed.
Print Assumptions C44_regular_walks.
Example C44_regular_example : exists out, generate_phases (settings_after []) exL exR 0 (1/100) exSrt = Ok out /\ no_empty_phase (go_ph out).
Proof.
  destruct ex_accepted as (out & H). exists out. split; [exact H|].
  assert (E : Rmin (g_switchPct (settings_after [])) (1 - g_switchPct (settings_after [])) = 1 / 2)
    by (cbn; unfold Rmin; destruct (Rle_dec _ _); lra).
  eapply (C44_regular_walks [] exL exR 0 (1/100) exSrt out 1 1 ex_sort ex_walk); try exact H; rewrite ?E; cbn; lra.
Qed.

(** C44, finding: a walk of one step whose switch phase rounds to zero samples.  The generator accepts it, then the feet
    interpolation consumes the step twice and fails, for every setting of the interpolation. *)
Theorem C44_empty_switch_refuted : exists ops left right srt out,
  sort_result (fp_steps left) (fp_steps right) srt
  /\ generate_phases (settings_after ops) left right 0 1 srt = Ok out
  /\ forall fops, feet_compute (feet_history fops) 1 (fp_steps left) (fp_steps right) (ph_left (go_ph out)) (ph_right (go_ph out)) (ph_shift (go_ph out)) = Fail.
Proof.
  destruct empty_run as (out & H & Ho & Hs & Hr & Hl). exists [GoSwitch (1/9)], stepL, stepR, stepSrt, out.
  split; [exact step_sort|]. split; [unfold settings_after; rewrite ratio_settings; exact H|].
  intros fops. pose proof (feet_history_ok fops) as Hc. set (c := feet_history fops) in *. rewrite Hs, Hr, Hl.
  unfold feet_compute, interpolate_foot. destruct (Rltb (f_height c) 0); [reflexivity|]. cbn [tl stepL stepR fp_steps].
  cbn [feet_loop nth_error Nat.sub repeat length Nat.add Nat.ltb Nat.leb rbind app].
  destruct (sub_size 0 0) eqn:E0; [|cbn in E0; discriminate|cbn in E0; discriminate]. cbn in E0. injection E0 as <-. cbn [rbind].
  destruct (swing_ok c 1 0 (MkStep (V2 0 (-1/10)) 0 0 "r") (MkStep (V2 (2/10) (-1/10)) 0 4 "r") Hc ltac:(lra)) as (o & -> & Lo & _).
  destruct o; [|discriminate]. cbn [rbind]. reflexivity.
Qed.
Print Assumptions C44_empty_switch_refuted.

(** C45. *)
Theorem C45_swings_within_bounds : forall fops dT n s0 s1, 0 < dT ->
  let c := feet_history fops in 0 <= f_height c ->
  exists out, swing_minjerk c dT n s0 s1 = Ok out /\ length out = n /\ forall x, In x out -> on_the_way (f_height c) s0 s1 x.
Proof.
  intros fops dT n s0 s1 Hd c Hh. pose proof (feet_history_ok fops) as Hc. fold c in Hc.
  destruct (swing_ok c dT n s0 s1 Hc Hd) as (out & E & L & P). exists out. split; [exact E|]. split; [exact L|].
  intros x Hx. apply In_nth_error in Hx. destruct Hx as [k Hk]. assert (k < length out)%nat by (apply nth_error_Some; congruence).
  apply (swing_on_the_way c dT n s0 s1 k x Hc Hh Hd); [lia|apply P; exact Hk].
Qed.
Print Assumptions C45_swings_within_bounds.
Example C45_example : 0 <= f_height (feet_history [FHeight (5/100); FApex (3/10); FApex 2]) /\ f_apex (feet_history [FHeight (5/100); FApex (3/10); FApex 2]) = 3 / 10.
Proof.
  cbn. rewrite rltb_f by lra. cbn. unfold Rgeb. rewrite (rleb_f (3/10) 0), (rleb_f 1 (3/10)) by lra. cbn.
  rewrite (rleb_f 2 0), (rleb_t 1 2) by lra. cbn. lra.
Qed.

(** C46. *)
Theorem C46_derivatives : forall i f d, 0 < d -> exists P V A : R -> R,
  (forall t, 0 <= t <= d -> min_jerk i f t d = Ok (MkPva (P t) (V t) (A t)))
  /\ (forall t, derivable_pt_lim P t (V t)) /\ (forall t, derivable_pt_lim V t (A t))
  /\ P 0 = i /\ V 0 = 0 /\ A 0 = 0 /\ P d = f /\ V d = 0 /\ A d = 0.
Proof.
  intros i f d Hd.
  exists (fun t => poly (t / d) * (f - i) + i), (fun t => (30 * (t / d) ^ 4 - 60 * (t / d) ^ 3 + 30 * (t / d) ^ 2) / d * (f - i)),
    (fun t => (120 * (t / d) ^ 3 - 180 * (t / d) ^ 2 + 60 * (t / d)) / d ^ 2 * (f - i)).
  assert (E0 : 0 / d = 0) by (unfold Rdiv; ring). assert (E1 : d / d = 1) by (field; lra).
  split.
  { intros t Ht. destruct (min_jerk_ok i f t d Hd Ht) as ([xp xv xa] & E & P & V & A). cbn in P, V, A. rewrite E. f_equal. f_equal; [rewrite P; ring|exact V|exact A]. }
  split.
  { intros t. pose proof (scaled_derive poly _ d (f - i) poly_derive ltac:(lra) t) as D.
    pose proof (derivable_pt_lim_plus _ _ _ _ _ D (derivable_pt_lim_const i t)) as D2. rewrite Rplus_0_r in D2. exact D2. }
  split.
  { intros t. pose proof (scaled_derive _ _ d ((f - i) / d) dpoly_derive ltac:(lra) t) as D. cbv beta in D.
    match type of D with derivable_pt_lim ?F _ ?l =>
      replace ((120 * (t / d) ^ 3 - 180 * (t / d) ^ 2 + 60 * (t / d)) / d ^ 2 * (f - i)) with l by (field; lra);
      eapply derivable_pt_lim_ext_eq; [|exact D] end. intros z. cbv beta. field. lra. }
  rewrite E0, E1. unfold poly. repeat split; try ring; try (field; lra).
Qed.
Print Assumptions C46_derivatives.
Example C46_example : exists x, min_jerk 0 1 1 2 = Ok x /\ p_p x = 1 / 2 /\ p_v x = 15 / 16 /\ p_a x = 0.
Proof. destruct (min_jerk_ok 0 1 1 2) as (x & E & P & V & A); try lra. exists x. split; auto. rewrite P, V, A. unfold poly. repeat split; field. Qed.

(** C46 for the samples of a swing: they are values of such curves (the vertical and pitch curves have two pieces). *)
Theorem C46_samples_on_curves : forall fops dT n s0 s1 (out : list sample), 0 < dT -> 
  let c := feet_history fops in swing_minjerk c dT n s0 s1 = Ok out ->
  exists n1 : nat, Rabs (INR n1 - INR n * f_apex c) <= / 2 /\ forall k x, nth_error out k = Some x ->
  min_jerk (vx (st_pos s0)) (vx (st_pos s1)) (INR k * dT) (INR n * dT) = Ok (s_x x)
  /\ min_jerk (vy (st_pos s0)) (vy (st_pos s1)) (INR k * dT) (INR n * dT) = Ok (s_y x)
  /\ min_jerk (st_angle s0) (st_angle s1) (INR k * dT) (INR n * dT) = Ok (s_yaw x)
  /\ ((k < n1)%nat -> min_jerk 0 (f_height c) (INR k * dT) (INR n * dT * f_apex c) = Ok (s_z x)
        /\ min_jerk 0 (f_pitch c) (INR k * dT) (INR n * dT * f_apex c) = Ok (s_pitch x))
  /\ ((n1 <= k)%nat -> min_jerk (f_height c) 0 (INR k * dT - INR n1 * dT) (INR n * dT * (1 - f_apex c)) = Ok (s_z x)
        /\ min_jerk (f_pitch c) 0 (INR k * dT - INR n1 * dT) (INR n * dT * (1 - f_apex c)) = Ok (s_pitch x)).
Proof.
  intros fops dT n s0 s1 out Hd c E. pose proof (feet_history_ok fops) as Hc. fold c in Hc.
  destruct (swing_ok c dT n s0 s1 Hc Hd) as (out' & E' & L & P). rewrite E in E'. injection E' as <-.
  exists (nround (INR n * f_apex c)). split.
  - assert (0 <= INR n * f_apex c) by (apply Rmult_le_pos; [apply pos_INR|destruct Hc; lra]).
    pose proof (nround_bounds _ H). apply Rabs_le. lra.
  - intros k x Hx. destruct (P k x Hx) as (A1 & A2 & A3 & A4). cbv zeta in *. repeat (split; [assumption|]).
    destruct A4 as [(K & Z1 & Z2)|(K & Z1 & Z2)]; split; intros K2; try lia; auto.
Qed.
Print Assumptions C46_samples_on_curves.

(** C64. *)
Theorem C64_no_height_jump : forall fops dT n s0 s1 (out : list sample), 0 < dT -> (1 <= n)%nat ->
  let c := feet_history fops in 0 <= f_height c -> swing_minjerk c dT n s0 s1 = Ok out ->
  forall k a b, nth_error (0 :: map (fun x => p_p (s_z x)) out ++ [0]) k = Some a ->
    nth_error (0 :: map (fun x => p_p (s_z x)) out ++ [0]) (S k) = Some b ->
  Rabs (b - a) <= 3 / 2 * (15 / 8 * f_height c / (INR n * Rmin (f_apex c) (1 - f_apex c))).
Proof.
  intros fops dT n s0 s1 out Hd Hn c Hh E k a b Ha Hb. pose proof (feet_history_ok fops) as Hc. fold c in Hc.
  destruct (swing_ok c dT n s0 s1 Hc Hd) as (out' & E' & L & P). rewrite E in E'. injection E' as <-.
  pose proof (swing_jumps c dT n s0 s1 out Hc Hh Hd Hn L P k a b Ha Hb) as J.
  replace (3 / 2 * (15 / 8 * f_height c / (INR n * Rmin (f_apex c) (1 - f_apex c)))) with (45 / 16 * f_height c / (INR n * Rmin (f_apex c) (1 - f_apex c))); auto.
  field. pose proof (fk_apex c Hc). assert (0 < Rmin (f_apex c) (1 - f_apex c)) by (apply Rmin_glb_lt; lra).
  assert (0 < INR n) by (apply lt_0_INR; lia). lra.
Qed.
Print Assumptions C64_no_height_jump.
Example C64_example : exists out, swing_minjerk (feet_history [FHeight (5/100)]) (1/100) 60 (MkStep vzero 0 0 "r") (MkStep (V2 (1/5) 0) 0 1 "r") = Ok out /\ length out = 60%nat.
Proof. destruct (swing_ok (feet_history [FHeight (5/100)]) (1/100) 60 (MkStep vzero 0 0 "r") (MkStep (V2 (1/5) 0) 0 1 "r")) as (o & E & L & _); eauto; [apply feet_history_ok|lra]. Qed.
