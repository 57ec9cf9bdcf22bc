(** Lemmas about the ZMP trajectories: empty phases, agreement with the feet trajectories, derivatives. *)
From Coq Require Import String Reals Lra Lia ZArith List Bool Sorting.Sorted Sorting.Permutation.
From Flocq Require Import Core.Raux.
From Verif Require Import Prelude EvalTac Rounding FootPrint GenPhases GenSpec GenProofs GenProofs2 GenProofs3 FeetTraj FeetSpec FeetProofs
  FeetProofs2 CoMHeightSpec CoMHeightProofs EllipseProofs ZMP ZMPSpec ZMPProofs ZMPProofs2 ZMPProofs3 ZMPProofs4.
Import ListNotations.
Open Scope R_scope.

Lemma local_empty_fails : forall spl Z dT zs zw first last p a, 0 < dT -> 0 < z_end Z -> 0 < z_nom Z ->
  p = Stance \/ (p = SwitchOut /\ first = false) -> local_piece spl Z dT zs zw first last p a a = Fail.
Proof.
  intros spl Z dT zs zw first last p a Hd H1 H2 [->|[-> ->]]; cbn [local_piece]; rewrite sub_size_le by lia; cbn [rbind]; rewrite Nat.sub_diag.
  - cbn [INR]. rewrite Rmult_0_l, spline_pts_0. reflexivity.
  - rewrite no_pause_0 by auto. assert (E : (if last then INR 0 * dT else INR 0 * dT / 2) = 0) by (destruct last; cbn [INR]; lra). rewrite E.
    replace (0 / dT) with 0 by (unfold Rdiv; ring). unfold size_ceil. rewrite Zceil_IZR. cbn [to_size rbind Z.ltb Z.compare]. rewrite spline_pts_0. reflexivity.
Qed.
Lemma weight_empty_fails : forall spl Z dT ph w0 first last p a, 0 < z_end Z -> 0 < z_nom Z ->
  p = SwitchIn \/ p = SwitchOut -> weight_piece spl Z dT ph w0 first last p a a <> Ok [].
Proof.
  intros spl Z dT ph w0 first last p a H1 H2 Q.
  destruct Q as [-> | ->]; cbn [weight_piece]; rewrite sub_size_le by lia; cbn [rbind]; rewrite Nat.sub_diag, no_pause_0 by auto; cbn [rbind length];
    rewrite Nat.add_0_r; (destruct last; [|destruct (nth_error ph a) as [q|]; [destruct q|cbn; discriminate]]; cbn [rbind]);
    cbn [rbind sub_size Nat.sub Nat.leb Nat.ltb INR]; rewrite Rmult_0_l, spline_pts_0; discriminate.
Qed.

Lemma hd_nth : forall (A : Type) (l : list A) x, hd_error l = Some x -> nth_error l 0 = Some x.
Proof. intros A [|a l] x H; exact H. Qed.

Section Run.
Variable spl : R -> R -> R -> R -> R -> R -> pva.
Variable g : gset.
Hypothesis G : good_settings g.
Variables left right : footprint.
Variables init dT : R.
Variable srt : list tstep.
Variable out : genout.
Hypothesis Gen : generate_phases g left right init dT srt = Ok out.
Let Z := ztimes_of g.
Let ph := go_ph out.
Let pl := planned (go_ord out).
Let N := (2 * length pl + 1)%nat.
Let steps := map t_step (go_ord out).

(** An empty phase always makes the computation fail. *)
Lemma run_no_empty : forall c zo c', zmp_compute spl c Z init dT left right steps ph = Ok (zo, c') -> no_empty_phase ph.
Proof.
  intros c zo c' H j a b Ha Hb.
  destruct (generate_inv _ _ _ _ _ _ _ G Gen) as (l0 & r0 & _ & _ & Hd & _ & _ & _ & _ & _ & P & _). fold ph pl in P.
  destruct (zmp_parts _ _ _ _ _ _ _ _ _ _ _ H) as (oldL & oldR & s1 & _ & Hw & _ & Hzl & Hzr & _).
  pose proof P as P0. destruct P0. pose proof (Zend g G) as Z1. pose proof (Znom g G) as Z2. fold Z in Z1, Z2.
  assert (Hj : (j < N)%nat). { assert (S j < length (ph_shift ph))%nat by (apply nth_error_Some; congruence). unfold N. lia. }
  assert (Ea : a = bnd ph j) by (unfold bnd; symmetry; apply nth_error_nth; auto).
  assert (Eb : b = bnd ph (S j)) by (unfold bnd; symmetry; apply nth_error_nth; auto). subst a b. clear Ha Hb.
  pose proof (p_mono j (S j) ltac:(unfold N in *; lia)) as M. destruct (Nat.eq_dec (bnd ph j) (bnd ph (S j))) as [E|]; [exfalso|lia].
  assert (Mono : forall i j : nat, (i <= j <= N)%nat -> (bnd ph i <= bnd ph j)%nat) by (intros; apply p_mono; unfold N in *; lia).
  assert (Ll : forall b zs zw k p o, (k < N)%nat -> nth_error (foot_phases ph b) (bnd ph k) = Some p ->
    local_piece spl Z dT zs zw (Nat.eqb k 0) (Nat.eqb (S k) N) p (bnd ph k) (bnd ph (S k)) = Ok o -> length o = (bnd ph (S k) - bnd ph k)%nat).
  { intros b zs zw k p o Hk Ep Ho. pose proof (Mono k (S k) ltac:(lia)). eapply (local_piece_len spl Z dT); eauto. }
  assert (Lw : forall k p o, (k < N)%nat -> nth_error (ph_left ph) (bnd ph k) = Some p ->
    weight_piece spl Z dT (ph_left ph) (init_weight c) (Nat.eqb k 0) (Nat.eqb (S k) N) p (bnd ph k) (bnd ph (S k)) = Ok o -> length o = (bnd ph (S k) - bnd ph k)%nat).
  { intros k p o Hk Ep Ho. pose proof (Mono k (S k) ltac:(lia)).
    destruct (weight_piece_inv spl Z dT Hd Z1 Z2 (ph_left ph) (init_weight c) (Nat.eqb k 0) (Nat.eqb (S k) N) p (bnd ph k) (bnd ph (S k)) o) as [L _]; auto.
    intros _. destruct (Nat.lt_ge_cases (bnd ph k) (bnd ph (S k))); [apply (foot_seg g dT init _ _ pl ph P true); auto|]. intros i Hi. lia. }
  unfold foot_weight, local_zmp in Hw, Hzl, Hzr. rewrite (shift_ends g dT init _ _ pl ph P) in Hw, Hzl, Hzr. fold N in Hw, Hzl, Hzr.
  pose proof (phase_loop_inv _ _ _ (bnd ph) N Mono Lw N 0%nat (zo_wl zo) ltac:(lia)) as Iw. rewrite p_hd in Iw. destruct (Iw Hw) as [_ Kw].
  pose proof (phase_loop_inv _ _ _ (bnd ph) N Mono (Ll true (z_stL c) (z_swL c)) N 0%nat (zo_zl zo) ltac:(lia)) as Il. rewrite p_hd in Il. destruct (Il Hzl) as [_ Kl].
  pose proof (phase_loop_inv _ _ _ (bnd ph) N Mono (Ll false (z_stR c) (z_swR c)) N 0%nat (zo_zr zo) ltac:(lia)) as Ir. rewrite p_hd in Ir. destruct (Ir Hzr) as [_ Kr].
  destruct (Kw j ltac:(lia)) as (p & o1 & Ep & Eo1 & _). destruct (Kl j ltac:(lia)) as (p' & o2 & Ep' & Eo2 & _). destruct (Kr j ltac:(lia)) as (q & o3 & Eq & Eo3 & _).
  cbn [foot_phases] in Ep', Eq. assert (p' = p) by congruence. subst p'.
  pose proof (Lw j p o1 Hj Ep Eo1) as L1. rewrite <- E in Eo1, Eo2, Eo3, L1. rewrite Nat.sub_diag in L1. destruct o1; [|discriminate].
  assert (Hi : (bnd ph j < length (ph_left ph))%nat) by (apply nth_error_Some; congruence).
  destruct (instant_cases g G left right init dT srt out Gen _ Hi) as (k & p' & q' & _ & Hb & C & Q1 & Q2 & _). fold ph in Hb, Q1, Q2.
  assert (p' = p) by (pose proof (Q1 _ Hb); congruence). assert (q' = q) by (pose proof (Q2 _ Hb); congruence). subst p' q'.
  destruct C as [[-> ->]|[[-> ->]|[[-> ->]|[-> ->]]]].
  - rewrite local_empty_fails in Eo3; auto. discriminate.
  - rewrite local_empty_fails in Eo2; auto. discriminate.
  - eapply weight_empty_fails; [exact Z1|exact Z2| |exact Eo1]; auto.
  - eapply weight_empty_fails; [exact Z1|exact Z2| |exact Eo1]; auto.
Qed.

Lemma run_end : no_empty_phase ph -> (1 <= nround (g_endSwitch g / dT))%nat /\ forall j, (j < N)%nat -> (bnd ph j < bnd ph (S j))%nat.
Proof.
  intros Hne. destruct (generate_inv _ _ _ _ _ _ _ G Gen) as (l0 & r0 & _ & _ & Hd & _ & _ & _ & _ & _ & P & _). fold ph pl in P. destruct P.
  assert (Hst : forall j, (j < N)%nat -> (bnd ph j < bnd ph (S j))%nat).
  { intros j Hj. apply (Hne j); unfold bnd; apply nth_error_nth'; fold ph; unfold N in Hj; lia. }
  split; auto. pose proof (Hst (2 * length pl)%nat ltac:(unfold N; lia)) as Q. replace (S (2 * length pl)) with (2 * length pl + 1)%nat in Q by lia. lia.
Qed.

(** Pausing requires a nominal switch of at least one sample. *)
Lemma run_states : forall c zo c', zmp_compute spl c Z init dT left right steps ph = Ok (zo, c') ->
  length (zo_states zo) = length (ph_merge ph)
  /\ forall j p, nth_error (ph_merge ph) j = Some p -> exists x, nth_error (zo_wl zo) p = Some x /\ nth_error (zo_states zo) j = Some (Some x).
Proof.
  intros c zo c' H. pose proof (run_no_empty c zo c' H) as Hne. destruct (run_end Hne) as [He Hst].
  destruct (run_values spl g G left right init dT srt out Gen c zo c' H) as (_ & L1 & _).
  destruct (generate_inv _ _ _ _ _ _ _ G Gen) as (l0 & r0 & _ & _ & Hd & _ & _ & _ & _ & _ & P & _). fold ph pl in P. destruct P.
  destruct (zmp_parts _ _ _ _ _ _ _ _ _ _ _ H) as (oldL & oldR & s1 & _ & _ & _ & _ & _ & Hs & _).
  destruct (p_m He) as (M1 & _ & _ & M4). destruct (init_states_ok (ph_merge ph) (zo_wl zo)) as (st & E1 & L & K).
  { eapply merge_nonempty; eauto. }
  { apply M4. intros k Hk. replace (2 * k + 2)%nat with (S (2 * k + 1)) by lia. apply Hst. unfold N. lia. }
  { intros m Hm. rewrite L1. fold ph. rewrite (p_size true : length (ph_left ph) = _). apply M1. auto. }
  rewrite Hs in E1. injection E1 as <-. auto.
Qed.

(** ** Agreement with the phases *)
Hypothesis Srt : sort_result (fp_steps left) (fp_steps right) srt.
Hypothesis TL : strictly_timed (fp_steps left).
Hypothesis TR : strictly_timed (fp_steps right).

Lemma strict_pair : forall (l : list step) i j a b, strictly_timed l -> nth_error l i = Some a -> nth_error l j = Some b -> st_time a <= st_time b -> (i <= j)%nat.
Proof.
  intros l i j a b H Ea Eb Hab. destruct (Nat.lt_ge_cases j i) as [L|L]; auto. exfalso. revert i j a b Ea Eb Hab L.
  induction H as [|h t H IH Hf]; intros i j a b Ea Eb Hab L; [destruct i; discriminate|]. destruct i as [|i]; [lia|]. destruct j as [|j]; cbn in Ea, Eb.
  - injection Eb as <-. rewrite Forall_forall in Hf. apply nth_error_In in Ea. specialize (Hf a Ea). lra.
  - apply (IH i j a b); auto. lia.
Qed.
Lemma latest_unique : forall l t a b, strictly_timed l -> latest l t a -> latest l t b -> a = b.
Proof.
  intros l t a b H (A1 & A2 & A3) (B1 & B2 & B3). pose proof (A3 b B1 B2). pose proof (B3 a A1 A2).
  apply In_nth_error in A1, B1. destruct A1 as (i & Ei). destruct B1 as (j & Ej).
  pose proof (strict_pair l i j a b H Ei Ej ltac:(lra)). pose proof (strict_pair l j i b a H Ej Ei ltac:(lra)). assert (i = j) by lia. congruence.
Qed.

(** The steps of a foot: the first one and the planned ones. *)
Lemma foot_step_cases : forall b s, In s (fp_steps (foot_of left right b)) ->
  hd_error (fp_steps (foot_of left right b)) = Some s
  \/ exists k t, nth_error pl k = Some t /\ t_left t = b /\ t_step t = s.
Proof.
  intros b s Hs. destruct (generate_inv _ _ _ _ _ _ _ G Gen) as (l0 & r0 & H1 & H2 & _ & _ & _ & _ & Ho & L & P & _). destruct P. fold pl in p_idx.
  destruct (run_order g G left right init dT srt out Gen Srt) as [E _].
  destruct p_idx as (nl & nr & I1 & I2). destruct (indices_complete _ _ _ nl nr E L) as [El Er]; auto.
  { intros C. rewrite C in H1. discriminate. } { intros C. rewrite C in H2. discriminate. }
  apply In_nth_error in Hs. destruct Hs as (m & Em). destruct m as [|m]; [left; destruct (fp_steps _); [discriminate|exact Em]|right].
  assert (Hm : In (S m) (foot_indices b pl)).
  { assert (S m < length (fp_steps (foot_of left right b)))%nat by (apply nth_error_Some; congruence).
    destruct b; [rewrite I1|rewrite I2]; apply in_seq; cbn [foot_of] in *; lia. }
  unfold foot_indices in Hm. apply in_map_iff in Hm. destruct Hm as (t & Et & Ht). apply filter_In in Ht. destruct Ht as [Ht Eb]. apply eqb_prop in Eb.
  pose proof Ht as Ht0. apply In_nth_error in Ht. destruct Ht as (k & Ek). exists k, t. split; auto. split; auto.
  destruct t as [tb ti ts]. cbn [t_left t_idx t_step] in *. subst tb ti. destruct E as [_ E].
  assert (In (MkT b (S m) ts) (go_ord out)). { unfold pl, planned in Ht0. destruct (go_ord out) as [|x [|y z]]; cbn in *; auto. }
  apply E in H. replace (foot_list (fp_steps left) (fp_steps right) b) with (fp_steps (foot_of left right b)) in H by (destruct b; reflexivity). congruence.
Qed.

Lemma landed_time : forall k t i, 0 < dT -> nth_error pl k = Some t -> st_time (t_step t) <= init + INR i * dT -> (bnd ph (2 * k + 2) <= i)%nat.
Proof.
  intros k t i Hd Ht H. destruct (generate_inv _ _ _ _ _ _ _ G Gen) as (l0 & r0 & _ & _ & _ & _ & _ & _ & _ & _ & P & _). fold ph pl in P. destruct P.
  pose proof (p_time k t Ht) as B. apply Rabs_le_inv in B. destruct (Nat.lt_ge_cases i (bnd ph (2 * k + 2))) as [L|L]; auto. exfalso.
  assert (INR i + 1 <= INR (bnd ph (2 * k + 2))) by (rewrite <- S_INR; apply le_INR; lia).
  assert ((INR i + 1) * dT <= INR (bnd ph (2 * k + 2)) * dT) by (apply Rmult_le_compat_r; lra). lra.
Qed.
Lemma landed_before : forall k t i, 0 < dT -> nth_error pl k = Some t -> (bnd ph (2 * k + 2) < i)%nat -> st_time (t_step t) <= init + INR i * dT.
Proof.
  intros k t i Hd Ht H. destruct (generate_inv _ _ _ _ _ _ _ G Gen) as (l0 & r0 & _ & _ & _ & _ & _ & _ & _ & _ & P & _). fold ph pl in P. destruct P.
  pose proof (p_time k t Ht) as B. apply Rabs_le_inv in B.
  assert (INR (bnd ph (2 * k + 2)) + 1 <= INR i) by (rewrite <- S_INR; apply le_INR; lia).
  assert ((INR (bnd ph (2 * k + 2)) + 1) * dT <= INR i * dT) by (apply Rmult_le_compat_r; lra). lra.
Qed.

Lemma lookup_agrees : forall b i s s' first, hd_error (fp_steps (foot_of left right b)) = Some first ->
  latest (fp_steps (foot_of left right b)) (init + INR i * dT) s -> stands_on first pl ph b i s' ->
  s = s' \/ exists k t, nth_error pl k = Some t /\ t_left t = b /\ i = bnd ph (2 * k + 2).
Proof.
  intros b i s s' first Hf Hl Hs. pose proof Hl as (L1 & L2 & L3).
  destruct (generate_inv _ _ _ _ _ _ _ G Gen) as (l0 & r0 & _ & _ & Hd & _ & _ & _ & Ho & _).
  assert (T : strictly_timed (fp_steps (foot_of left right b))) by (destruct b; assumption).
  destruct (run_order g G left right init dT srt out Gen Srt) as [E _].
  pose proof (order_strict _ _ (proj2 Srt) Ho) as St. fold pl in St.
  destruct Hs as [(k & t & K1 & K2 & K3 & K4 & K5)|(K1 & K2)].
  - destruct (Nat.eq_dec i (bnd ph (2 * k + 2))) as [->|Ni]; [right; exists k, t; auto|left].
    pose proof (landed_before k t i Hd K1 ltac:(lia)) as Tk. rewrite K4 in Tk.
    assert (Is : exists m, nth_error (fp_steps (foot_of left right b)) m = Some s').
    { pose proof (nth_error_In _ _ K1) as Ht. assert (In t (go_ord out)). { unfold pl, planned in Ht. destruct (go_ord out) as [|x [|y z]]; cbn in *; auto. }
      destruct t as [tb ti ts]. cbn [t_left t_idx t_step] in *. subst tb ts. apply (proj2 E) in H. exists ti. destruct b; exact H. }
    destruct Is as (m & Em). pose proof (L3 s' (nth_error_In _ _ Em) Tk) as Q.
    destruct (foot_step_cases b s L1) as [H0|(k2 & t2 & E1 & E2 & E3)].
    + pose proof (hd_nth _ _ _ H0) as E0.
      pose proof (strict_pair _ m 0 s' s T Em E0 Q). assert (m = 0)%nat by lia. congruence.
    + assert (bnd ph (2 * k2 + 2) <= i)%nat by (apply (landed_time k2 t2 i Hd E1); rewrite E3; auto).
      pose proof (K5 k2 t2 E1 E2 H) as Hk. destruct (Nat.eq_dec k2 k) as [->|Nk]; [congruence|exfalso].
      assert (st_time (t_step t2) < st_time (t_step t)).
      { clear -St E1 K1 Hk Nk. revert k2 k E1 K1 Hk Nk. induction St as [|h r St IH Hf]; intros k2 k E1 K1 Hk Nk; [destruct k2; discriminate|].
        destruct k2 as [|k2]; destruct k as [|k]; try lia; cbn in *.
        - assert (h = t2) by congruence. subst h. rewrite Forall_forall in Hf. apply Hf. eapply nth_error_In; eauto.
        - apply (IH k2 k); auto; lia. }
      rewrite E3, K4 in H0. lra.
  - left. destruct (foot_step_cases b s L1) as [H0|(k2 & t2 & E1 & E2 & E3)]; [congruence|exfalso].
    assert (bnd ph (2 * k2 + 2) <= i)%nat by (apply (landed_time k2 t2 i Hd E1); rewrite E3; auto). pose proof (K2 k2 t2 E1 E2). lia.
Qed.

(** At the instant of an impact the foot carries nothing yet. *)
Lemma impact_phase : alternating pl -> no_empty_phase ph -> forall k t, nth_error pl k = Some t ->
  let j := (2 * k + 2)%nat in (j < N)%nat /\ seg (foot_phases ph (t_left t)) (bnd ph j) (bnd ph (S j)) SwitchIn
  /\ seg (foot_phases ph (negb (t_left t))) (bnd ph j) (bnd ph (S j)) SwitchOut.
Proof.
  intros Ha Hne k t Ht. cbv zeta. destruct (generate_inv _ _ _ _ _ _ _ G Gen) as (l0 & r0 & _ & _ & Hd & _ & _ & _ & _ & _ & P & _). fold ph pl in P. destruct P.
  assert (Hk : (k < length pl)%nat) by (apply nth_error_Some; congruence). split; [unfold N; lia|].
  destruct (nth_error pl (S k)) as [t'|] eqn:Et.
  - destruct (p_win (S k) t' Et) as (W1 & W2 & _). pose proof (Ha k t t' Ht Et) as Nb.
    replace (2 * S k)%nat with (2 * k + 2)%nat in * by lia. replace (2 * k + 2 + 1)%nat with (S (2 * k + 2)) in * by lia.
    assert (E1 : negb (t_left t') = t_left t) by (destruct (t_left t), (t_left t'); cbn; congruence).
    assert (E2 : negb (t_left t) = t_left t') by (destruct (t_left t), (t_left t'); cbn; congruence).
    rewrite E1 in W2. rewrite E2. auto.
  - apply nth_error_None in Et. assert (Ek : length pl = S k) by lia.
    assert (E : last_mover (st_time l0) (st_time r0) pl = t_left t).
    { unfold last_mover. destruct pl as [|x l] eqn:Epl using rev_ind; [destruct k; discriminate|]. rewrite rev_app_distr. cbn.
      rewrite app_length in Ek. cbn in Ek. rewrite nth_error_app2 in Ht by lia. replace (k - length l)%nat with 0%nat in Ht by lia. cbn in Ht. congruence. }
    rewrite E in p_end. replace (2 * length pl)%nat with (2 * k + 2)%nat in p_end by lia. replace (2 * k + 2 + 1)%nat with (S (2 * k + 2)) in p_end by lia. exact p_end.
Qed.
End Run.

(** ** Derivatives *)
Lemma cubic_derive : forall a b c d t, derivable_pt_lim (fun t => p_p (cubic a b c d t)) t (p_v (cubic a b c d t))
  /\ derivable_pt_lim (fun t => p_v (cubic a b c d t)) t (p_a (cubic a b c d t)).
Proof.
  intros a b c d t. unfold cubic. cbn [p_p p_v p_a].
  assert (P3 := derivable_pt_lim_pow t 3). assert (P2 := derivable_pt_lim_pow t 2). assert (P1 := derivable_pt_lim_id t).
  cbn [pred INR] in P3, P2. split.
  - pose proof (derivable_pt_lim_plus _ _ _ _ _ (derivable_pt_lim_plus _ _ _ _ _ (derivable_pt_lim_plus _ _ _ _ _ (derivable_pt_lim_const a t) (derivable_pt_lim_scal _ b _ _ P1))
      (derivable_pt_lim_scal _ c _ _ P2)) (derivable_pt_lim_scal _ d _ _ P3)) as D.
    eapply derivable_pt_lim_ext_eq; [|match type of D with derivable_pt_lim ?f t ?l => replace (b + 2 * c * t + 3 * d * t ^ 2) with l; [exact D|cbn [pow]; ring] end].
    intros x. unfold plus_fct, mult_real_fct, fct_cte, id. ring.
  - pose proof (derivable_pt_lim_plus _ _ _ _ _ (derivable_pt_lim_plus _ _ _ _ _ (derivable_pt_lim_const b t) (derivable_pt_lim_scal _ (2 * c) _ _ P1)) (derivable_pt_lim_scal _ (3 * d) _ _ P2)) as D.
    eapply derivable_pt_lim_ext_eq; [|match type of D with derivable_pt_lim ?f t ?l => replace (2 * c + 6 * d * t) with l; [exact D|cbn [pow]; ring] end].
    intros x. unfold plus_fct, mult_real_fct, fct_cte, id. ring.
Qed.
