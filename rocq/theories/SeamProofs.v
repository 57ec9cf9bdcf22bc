From Coq Require Import String Reals Lra Lia ZArith List Bool Sorting.Sorted Sorting.Permutation.
From Flocq Require Import Core.Raux.
From Verif Require Import Prelude Rounding FootPrint FootPrintSpec UnicycleFoot PlannerSearch PlannerSpec Planner PlannerProofs PlannerProofs3 EndToEndSpec GenPhases GenSpec GenProofs GenProofs2 GenProofs3 GenProofs4 FeetTraj FeetSpec FeetProofs FeetProofs2 CoMHeight DCM Generator GeneratorSpec FeetSpline FeetSplineSpec FeetSplineProofs GeneratorProofs SeamSpec Properties_Generator Properties_Feet.
Import ListNotations.
Open Scope R_scope.

(** ** Merge points strictly inside the double supports *)
Lemma nround_succ : forall x y, 0 <= x -> x + 1 <= y -> (nround x < nround y)%nat.
Proof.
  intros x y Hx H. pose proof (nround_bounds x Hx). pose proof (nround_bounds y ltac:(lra)). apply INR_lt. lra.
Qed.

Lemma later_switch : forall g sf t, good_settings g -> 0 <= t ->
  g_switchPct g * t <= switch_time g (g_nomStep g - g_switchPct g * g_nomStep g) false sf t.
Proof.
  intros g sf t [[P0 P1] E [N1 N2] M] Ht. unfold switch_time. cbn [andb]. destruct (g_pause g && Rgtb t (g_maxStep g)) eqn:Ep; [|lra].
  apply andb_prop in Ep. destruct Ep as [_ Ep]. unfold Rgtb in Ep. apply Rltb_true in Ep. nra.
Qed.

Lemma cp_step_merge : forall g dT nl nr sf k nx s s' w, good_settings g -> 0 < dT -> k <> 2%nat ->
  cp_step g dT (g_nomStep g - g_switchPct g * g_nomStep g) nl nr sf k nx s = Ok s' ->
  0 <= w -> w <= st_time (t_step nx) - c_prev s ->
  dT <= g_mrBegin g * (g_switchPct g * w) -> dT / 2 <= (1 - g_mrEnd g) * (g_switchPct g * w) ->
  exists mp sw, c_merge s' = c_merge s ++ mp /\ c_shift s' = c_shift s ++ [(c_cur s + sw)%nat; c_cur s'] /\ forall m, In m mp -> (c_cur s < m < c_cur s + sw)%nat.
Proof.
  intros g dT nl nr sf k nx s s' w G Hd Hk H Hw Hst H1 H2. pose proof G as [[P0 P1] _ _ [[M0 M1] M2]].
  unfold cp_step in H. set (stepTime := st_time (t_step nx) - c_prev s) in *.
  destruct (Rltb stepTime 0) eqn:B; [discriminate|]. clear B. assert (B : 0 <= stepTime) by lra. rewrite (proj2 (Nat.eqb_neq k 2) Hk) in H.
  set (sw := switch_time g (g_nomStep g - g_switchPct g * g_nomStep g) false sf stepTime) in *.
  pose proof (later_switch g sf stepTime G B) as L. fold sw in L. pose proof (switch_time_bounds g false sf stepTime G B) as [S0 S1]. cbv zeta in S0, S1. fold sw in S0, S1.
  assert (W : g_switchPct g * w <= sw) by (assert (g_switchPct g * w <= g_switchPct g * stepTime) by (apply Rmult_le_compat_l; lra); lra).
  assert (Db : dT <= g_mrBegin g * sw) by (assert (g_mrBegin g * (g_switchPct g * w) <= g_mrBegin g * sw) by (apply Rmult_le_compat_l; lra); lra).
  assert (De : dT / 2 <= (1 - g_mrEnd g) * sw) by (assert ((1 - g_mrEnd g) * (g_switchPct g * w) <= (1 - g_mrEnd g) * sw) by (apply Rmult_le_compat_l; lra); lra).
  assert (Dv : forall x y, x <= y -> x / dT <= y / dT) by (intros; apply Rmult_le_compat_r; [apply Rlt_le, Rinv_0_lt_compat; lra|lra]).
  assert (D0 : 0 <= stepTime / dT) by (apply div_nonneg; auto). assert (D1 : 0 <= sw / dT) by (apply div_nonneg; auto).
  assert (D2 : 0 <= sw * (1 - g_mrBegin g) / dT) by (apply div_nonneg; auto; apply Rmult_le_pos; lra).
  assert (D3 : 0 <= sw * (1 - g_mrEnd g) / dT) by (apply div_nonneg; auto; apply Rmult_le_pos; lra).
  assert (I1 : (nround (sw * (1 - g_mrBegin g) / dT) < nround (sw / dT))%nat).
  { apply nround_succ; auto. replace (sw * (1 - g_mrBegin g) / dT + 1) with ((sw * (1 - g_mrBegin g) + dT) / dT) by (field; lra). apply Dv. lra. }
  assert (I2 : (1 <= nround (sw * (1 - g_mrEnd g) / dT))%nat).
  { apply nround_pos. replace (/ 2) with (dT / 2 / dT) by (field; lra). apply Dv. lra. }
  assert (I3 : (nround (sw * (1 - g_mrEnd g) / dT) <= nround (sw * (1 - g_mrBegin g) / dT))%nat).
  { apply nround_mono. split; auto. apply Dv. apply Rmult_le_compat_l; lra. }
  rewrite !size_round_ok in H by assumption. cbn [rbind] in H.
  set (n := nround (stepTime / dT)) in *. set (ns := nround (sw / dT)) in *. set (nb := nround (sw * (1 - g_mrBegin g) / dT)) in *. set (ne := nround (sw * (1 - g_mrEnd g) / dT)) in *.
  apply rbind_ok in H. destruct H as (q & _ & H). match type of H with (if ?b then _ else _) = _ => destruct b end; [discriminate|].
  unfold sub_size in H. rewrite (proj2 (Nat.leb_le nb (c_cur s + ns)) ltac:(lia)), (proj2 (Nat.leb_le ne (c_cur s + ns)) ltac:(lia)) in H. cbn [rbind] in H.
  injection H as <-. cbn [c_merge c_shift c_cur]. do 2 eexists. split; [reflexivity|]. split; [reflexivity|].
  intros m Hm. unfold range_incl in Hm. apply in_seq in Hm. lia.
Qed.

Lemma loop_merges : forall g dT init nl nr sf gap tl done k s s', good_settings g -> 0 < dT -> 0 <= gap - dT / 2 ->
  dT <= g_mrBegin g * (g_switchPct g * (gap - dT / 2)) -> dT / 2 <= (1 - g_mrEnd g) * (g_switchPct g * (gap - dT / 2)) ->
  k = (2 + length done)%nat -> Inv dT init done s ->
  (forall m, In m (c_merge s) -> m = 0%nat \/ exists j, (j < length done)%nat /\ (sh s (2 * j) < m < sh s (2 * j + 1))%nat) ->
  match rev done with [] => True | t :: _ => spaced (st_time (t_step t)) gap (map t_step (firstn 1 tl)) end ->
  (match tl with [] => True | t :: r => spaced (st_time (t_step t)) gap (map t_step r) end) ->
  cp_loop g dT (g_nomStep g - g_switchPct g * g_nomStep g) nl nr sf k tl s = Ok s' ->
  (forall m, In m (c_merge s') -> m = 0%nat \/ exists j, (j < length (done ++ tl))%nat /\ (sh s' (2 * j) < m < sh s' (2 * j + 1))%nat).
Proof.
  intros g dT init nl nr sf gap tl. induction tl as [|nx tl IH]; intros done k s s' G Hd Hw Hg He Hk I Hm H1 H2 H; simpl in H.
  - inversion H; subst. rewrite app_nil_r. auto.
  - apply rbind_ok in H. destruct H as (s1 & Hs1 & H).
    pose proof (Inv_step _ _ _ _ _ _ _ _ _ _ _ G Hd Hk I Hs1) as I1.
    replace (done ++ nx :: tl) with ((done ++ [nx]) ++ tl) by (rewrite <- app_assoc; reflexivity).
    apply (IH (done ++ [nx]) (S k) s1 s'); auto.
    + rewrite app_length. simpl. lia.
    + assert (Old : forall q, (exists j, (j < length done)%nat /\ (sh s (2 * j) < q < sh s (2 * j + 1))%nat) -> forall x y, c_shift s1 = c_shift s ++ [x; y] ->
        exists j, (j < length (done ++ [nx]))%nat /\ (sh s1 (2 * j) < q < sh s1 (2 * j + 1))%nat).
      { intros q (j & J1 & J2) x y E. exists j. rewrite app_length. split; [cbn; lia|]. destruct I. unfold sh in *. rewrite E, !app_nth1 by lia. exact J2. }
      destruct (rev done) as [|t rd] eqn:E.
      * assert (done = []) by (rewrite <- (rev_involutive done), E; reflexivity). subst done. cbn [length Nat.add] in Hk. subst k.
        destruct (cp_step_inv _ _ _ _ _ _ _ _ _ G Hd Hs1) as (_ & _ & _ & _ & _ & Hsh & _ & _ & _ & _ & _ & mp & Em & Ez & _). rewrite (Ez eq_refl), app_nil_r in Em.
        intros m M. rewrite Em in M. destruct (Hm m M) as [->|(j & J & _)]; [auto|cbn in J; lia].
      * assert (Hd' : done = rev rd ++ [t]) by (rewrite <- (rev_involutive done), E; reflexivity).
        pose proof (prev_close _ _ _ _ _ I (ex_intro _ _ Hd')) as C. apply Rabs_le_inv in C. simpl in H1.
        destruct (cp_step_merge g dT nl nr sf k nx s s1 (gap - dT / 2) G Hd) as (mp & sw & Em & Es & P); auto; [destruct done; [discriminate|]; cbn [length] in Hk; lia|lra|].
        intros m M. rewrite Em in M. apply in_app_or in M. destruct M as [M|M].
        -- destruct (Hm m M) as [->|Q]; [auto|]. right. eapply Old; eauto.
        -- right. exists (length done). rewrite app_length. split; [cbn; lia|]. specialize (P m M). destruct I. unfold sh in *. rewrite Es.
           rewrite (app_nth1 _ _ 0%nat (n := (2 * length done)%nat)) by lia. rewrite (app_nth2 _ _ 0%nat (n := (2 * length done + 1)%nat)) by lia. rewrite i_len. replace (2 * length done + 1 - (2 * length done + 1))%nat with 0%nat by lia. cbn [nth]. rewrite i_cur. exact P.
    + rewrite rev_app_distr. simpl. destruct tl as [|t2 tl]; simpl; auto. simpl in H2. tauto.
    + destruct tl as [|t2 tl]; auto. simpl in H2. tauto.
Qed.

Lemma create_merges : forall g dT init nl nr fl fr ord gap ph, good_settings g -> 0 < dT -> 0 <= gap - dT / 2 ->
  dT <= g_mrBegin g * (g_switchPct g * (gap - dT / 2)) -> dT / 2 <= (1 - g_mrEnd g) * (g_switchPct g * (gap - dT / 2)) -> 3 / 2 * dT <= g_endSwitch g ->
  match planned ord with [] => True | t :: q => spaced (st_time (t_step t)) gap (map t_step q) end ->
  create_phases g dT init nl nr fl fr ord = Ok ph ->
  forall m, In m (ph_merge ph) -> m = 0%nat \/ exists j, (j <= length (planned ord))%nat /\ (bnd ph (2 * j) < m < bnd ph (2 * j + 1))%nat.
Proof.
  intros g dT init nl nr fl fr ord gap ph G Hd Hw Hg He Hes Hsp H.
  assert (Es : (2 <= nround (g_endSwitch g / dT))%nat).
  { replace 2%nat with (nround (INR 2)) by apply nround_INR. rewrite <- (nround_imp (3 / 2) 2) by (cbn; lra). rewrite (nround_INR (nround (3 / 2))). apply nround_mono. split; [lra|].
    apply (Rmult_le_reg_r dT); auto. replace (g_endSwitch g / dT * dT) with (g_endSwitch g) by (field; lra). exact Hes. }
  destruct ord as [|a [|b [|c tl0]]]; try discriminate.
  - cbn [create_phases] in H. rewrite size_round_ok in H by (apply div_nonneg; auto; apply Rlt_le, (good_end g G)). cbn [rbind] in H. injection H as <-.
    intros m [<-|M]; [auto|]. right. exists 0%nat. apply in_seq in M. cbn [planned tl length]. unfold bnd. cbn [ph_shift Nat.mul Nat.add nth]. lia.
  - unfold planned in *. cbn [tl] in *. cbn [create_phases] in H. set (pl := c :: tl0) in *.
    apply rbind_ok in H. destruct H as (tot & _ & H). apply rbind_ok in H. destruct H as (s & Hs & H).
    pose proof I as I0. assert (I : Inv dT init pl s). { change pl with ([] ++ pl). eapply Inv_loop; [exact G|exact Hd| |apply Inv_0|exact Hs]. reflexivity. }
    assert (MP : forall m, In m (c_merge s) -> m = 0%nat \/ exists j, (j < length ([] ++ pl))%nat /\ (sh s (2 * j) < m < sh s (2 * j + 1))%nat).
    { eapply loop_merges; [exact G|exact Hd|exact Hw|exact Hg|exact He| |apply Inv_0| | | |exact Hs]; auto.
      all: try exact I0. all: try exact Hsp. cbn. intros m [<-|[]]. auto. }
    cbn [app] in MP. rewrite size_round_ok in H by (apply div_nonneg; auto; apply Rlt_le, (good_end g G)). cbn [rbind] in H. set (es := nround (g_endSwitch g / dT)) in *.
    apply rbind_ok in H. destruct H as (ml & Hml & H). apply sub_size_ok in Hml. destruct Hml as [_ Hml]. injection H as <-. cbn [ph_merge]. destruct I.
    intros m M. unfold bnd. cbn [ph_shift]. apply in_app_or in M. destruct M as [M|[<-|[]]].
    + destruct (MP m M) as [->|(j & J1 & J2)]; [auto|]. right. exists j. split; [lia|]. unfold sh in J2. rewrite !app_nth1 by lia. exact J2.
    + right. exists (length pl). split; [lia|]. rewrite app_nth1 by lia. rewrite app_nth2 by lia. rewrite i_len. replace (2 * length pl + 1 - (2 * length pl + 1))%nat with 0%nat by lia. cbn [nth].
      unfold sh in i_cur. rewrite i_cur. lia.
Qed.

Lemma generate_merges : forall g left right init dT srt out lead gap, good_settings g -> 0 < gap -> 0 <= gap - dT / 2 ->
  sort_result (fp_steps left) (fp_steps right) srt -> walk (fp_steps left) (fp_steps right) init lead gap ->
  dT <= g_mrBegin g * (g_switchPct g * (gap - dT / 2)) -> dT / 2 <= (1 - g_mrEnd g) * (g_switchPct g * (gap - dT / 2)) -> 3 / 2 * dT <= g_endSwitch g ->
  generate_phases g left right init dT srt = Ok out ->
  forall m, In m (ph_merge (go_ph out)) -> m = 0%nat \/ exists j, (j <= length (planned (go_ord out)))%nat /\ (bnd (go_ph out) (2 * j) < m < bnd (go_ph out) (2 * j + 1))%nat.
Proof.
  intros g left right init dT srt out lead gap G Hg0 Hw [P Sd] W H1 H2 H3 H.
  assert (Hd : 0 < dT). { destruct (generate_inv _ _ _ _ _ _ _ G H) as (? & ? & _ & _ & D & _). auto. }
  unfold generate_phases, fp_number in H.
  destruct (fp_steps left) as [|l0 l] eqn:El; [discriminate|].
  destruct (fp_steps right) as [|r0 r] eqn:Er; [discriminate|]. cbn [length Nat.ltb Nat.leb] in H.
  destruct (String.eqb _ _); [discriminate|]. destruct (Rleb dT 0); [discriminate|]. destruct (Rltb _ _); [discriminate|].
  apply rbind_ok in H. destruct H as (ord & Ho & H). apply rbind_ok in H. destruct H as (ph & Hp & H).
  inversion H; subst out; clear H. cbn [go_ord go_ph].
  assert (Es : enumerates (l0 :: l) (r0 :: r) srt) by (eapply enumerates_perm; [apply Permutation_sym; exact P|apply all_steps_enumerates]).
  destruct (ord_structure _ _ _ _ _ _ Hg0 W Es Sd) as (a & b & pl & -> & A1 & A2 & A3 & A4 & A5 & A6 & A7 & A8 & A9).
  assert (Sp : StronglySorted tle pl) by (inversion Sd as [|? ? Q ?]; inversion Q; auto).
  pose proof (planned_spaced _ _ _ _ _ pl Hg0 W A8 A9 Sp) as SP.
  eapply create_merges; [exact G|exact Hd|exact Hw|exact H1|exact H2|exact H3| |exact Hp].
  rewrite (order_planned _ _ Ho). cbn [planned tl]. destruct pl; [exact I|]. apply SP.
Qed.

(** Such instants are good for switching. *)
Lemma inside_switch : forall g dT init fl fr pl ph m, PhOk g dT init fl fr pl ph -> 
  (exists j, (j <= length pl)%nat /\ (bnd ph (2 * j) <= m < bnd ph (2 * j + 1))%nat) -> double_support ph m.
Proof.
  intros g dT init fl fr pl ph m P (j & J1 & J2) b. destruct P. destruct (Nat.eq_dec j (length pl)) as [->|Ne].
  - destruct p_end as [W1 W2]. specialize (W1 m J2). specialize (W2 m J2). destruct (Bool.bool_dec (last_mover fl fr pl) b) as [E|E].
    + rewrite E in W1. eauto.
    + assert (En : negb (last_mover fl fr pl) = b) by (destruct (last_mover fl fr pl), b; cbn; congruence). rewrite En in W2. eauto.
  - destruct (nth_error pl j) as [t|] eqn:Et; [|apply nth_error_None in Et; lia]. destruct (p_win j t Et) as (W1 & W2 & _). specialize (W1 m J2). specialize (W2 m J2).
    destruct (Bool.bool_dec (t_left t) b) as [E|E].
    + rewrite E in W1. eauto.
    + assert (En : negb (t_left t) = b) by (destruct (t_left t), b; cbn; congruence). rewrite En in W2. eauto.
Qed.
Lemma after_landing : forall g dT init fl fr out m, 0 < dT -> PhOk g dT init fl fr (planned (go_ord out)) (go_ph out) ->
  (exists j, (j <= length (planned (go_ord out)))%nat /\ (bnd (go_ph out) (2 * j) < m < bnd (go_ph out) (2 * j + 1))%nat) -> punctual init dT out m.
Proof.
  intros g dT init fl fr out m Hd P (j & J1 & J2) k t Hk Hb. destruct P. set (ph := go_ph out) in *. set (pl := planned (go_ord out)) in *.
  assert (Lk : (k < length pl)%nat) by (apply nth_error_Some; congruence).
  assert (Q : (k < j)%nat). { destruct (Nat.lt_ge_cases k j) as [|L]; auto. exfalso. assert (bnd ph (2 * j + 1) <= bnd ph (2 * k + 2))%nat by (apply p_mono; lia). lia. }
  assert (Q2 : (bnd ph (2 * k + 2) <= bnd ph (2 * j))%nat) by (apply p_mono; lia).
  pose proof (p_time k t Hk) as T. apply Rabs_le_inv in T. assert (INR (bnd ph (2 * k + 2)) + 1 <= INR m) by (rewrite <- S_INR; apply le_INR; lia). nra.
Qed.

(** ** The foot is on the step that re-planning takes as the present one *)
Lemma foot_indices_app : forall b l1 l2, foot_indices b (l1 ++ l2) = foot_indices b l1 ++ foot_indices b l2.
Proof. intros. unfold foot_indices. rewrite filter_app, map_app. reflexivity. Qed.
Lemma ssorted_tail : forall (A : Type) (Q : A -> A -> Prop) l l', StronglySorted Q (l ++ l') -> StronglySorted Q l'.
Proof. intros A Q l l'. induction l as [|x l IH]; cbn; auto. intros H. inversion H; auto. Qed.
Lemma index_order : forall b pl n k k' t t', foot_indices b pl = seq 1 n -> nth_error pl k = Some t -> nth_error pl k' = Some t' ->
  t_left t = b -> t_left t' = b -> (t_idx t < t_idx t')%nat -> (k < k')%nat.
Proof.
  intros b pl n k k' t t' E Hk Hk' Ht Ht' L. destruct (Nat.lt_trichotomy k k') as [?|[->|G]]; auto.
  - rewrite Hk in Hk'. injection Hk' as <-. lia.
  - exfalso. destruct (nth_error_split pl k' Hk') as (p1 & p2 & Ep & Lp). rewrite Ep in Hk.
    rewrite nth_error_app2 in Hk by lia. destruct (k - length p1)%nat as [|q] eqn:Q; [lia|]. cbn in Hk. apply nth_error_In in Hk.
    assert (So : StronglySorted lt (foot_indices b pl)) by (rewrite E; apply seq_ssorted). rewrite Ep in So.
    rewrite foot_indices_app in So. apply ssorted_tail in So. unfold foot_indices in So. cbn [filter] in So. rewrite Ht', Bool.eqb_reflx in So. cbn [map] in So.
    apply StronglySorted_inv in So. destruct So as [_ F]. rewrite Forall_forall in F. assert (t_idx t' < t_idx t)%nat; [|lia]. apply F. apply in_map, filter_In. rewrite Ht, Bool.eqb_reflx. auto.
Qed.

Lemma stands_present : forall ops left right init dT srt out first m b s, sort_result (fp_steps left) (fp_steps right) srt ->
  generate_phases (settings_after ops) left right init dT srt = Ok out -> punctual init dT out m ->
  hd_error (foot_list (fp_steps left) (fp_steps right) b) = Some first ->
  stands_on first (planned (go_ord out)) (go_ph out) b m s ->
  present (if b then left else right) (init + INR m * dT) s.
Proof.
  intros ops left right init dT srt out first m b s Hs H Pu F St.
  destruct (C36_swings_match_steps ops left right init dT srt out Hs H) as (_ & Hst & Hil & Hir & _).
  destruct (generate_inv _ _ _ _ _ _ _ (good_history ops) H) as (l0 & r0 & H1 & H2 & Hd & _ & T1 & T2 & _ & _ & P & _). destruct P.
  set (pl := planned (go_ord out)) in *. set (ph := go_ph out) in *. set (L := foot_list (fp_steps left) (fp_steps right) b) in *.
  assert (EL : fp_steps (if b then left else right) = L) by (unfold L; destruct b; reflexivity).
  assert (Fi : foot_indices b pl = seq 1 (length L - 1)) by (unfold L; destruct b; assumption).
  assert (T0 : 0 <= INR m * dT) by (apply Rmult_le_pos; [apply pos_INR|lra]).
  assert (Fut : forall k' t', nth_error pl k' = Some t' -> (m < bnd ph (2 * k' + 2))%nat -> init + INR m * dT < st_time (t_step t')).
  { intros k' t' E Q. pose proof (p_time k' t' E) as T. apply Rabs_le_inv in T. assert (INR m + 1 <= INR (bnd ph (2 * k' + 2))) by (rewrite <- S_INR; apply le_INR; lia). nra. }
  assert (At : forall j x, (1 <= j)%nat -> nth_error L j = Some x -> exists k' t', nth_error pl k' = Some t' /\ t_left t' = b /\ t_idx t' = j /\ t_step t' = x).
  { intros j x J E. assert (In j (foot_indices b pl)) as I. { rewrite Fi. apply in_seq. assert (j < length L)%nat by (apply nth_error_Some; congruence). lia. }
    unfold foot_indices in I. apply in_map_iff in I. destruct I as (t' & I1 & I2). apply filter_In in I2. destruct I2 as [I2 I3]. apply Bool.eqb_prop in I3.
    apply In_nth_error in I2. destruct I2 as (k' & I2). exists k', t'. repeat split; auto. destruct (Hst k' t' I2) as [Q _]. rewrite I3, I1 in Q. fold L in Q. congruence. }
  unfold present. rewrite EL. destruct St as [(k & t & K1 & K2 & K3 & K4 & K5)|(-> & K5)].
  - destruct (Hst k t K1) as [Q _]. rewrite K2 in Q. fold L in Q. destruct (nth_error_split L (t_idx t) Q) as (pre & post & E & Le). rewrite <- K4. exists pre, post. split; [exact E|].
    split; [apply Pu with (k := k); auto|]. apply Forall_forall. intros x Hx. apply In_nth_error in Hx. destruct Hx as (q & Hq).
    assert (E' : nth_error L (t_idx t + S q) = Some x). { rewrite E, nth_error_app2 by lia. rewrite Le. replace (t_idx t + S q - t_idx t)%nat with (S q) by lia. exact Hq. }
    destruct (At (t_idx t + S q)%nat x ltac:(lia) E') as (k' & t' & A1 & A2 & A3 & A4). rewrite <- A4. apply (Fut k'); auto.
    destruct (Nat.lt_ge_cases m (bnd ph (2 * k' + 2))) as [|Ge]; auto. exfalso. assert (k < k')%nat by (apply (index_order b pl _ k k' t t' Fi); auto; lia). specialize (K5 k' t' A1 A2 Ge). lia.
  - destruct L as [|y L'] eqn:E; [discriminate|]. cbn in F. injection F as ->. exists [], L'. split; [reflexivity|]. split.
    + assert (st_time first <= init); [|lra]. unfold L in E. destruct b; cbn [foot_list] in E; [rewrite E in H1; injection H1 as ->|rewrite E in H2; injection H2 as ->]; auto.
    + apply Forall_forall. intros x Hx. apply In_nth_error in Hx. destruct Hx as (q & Hq). destruct (At (S q) x ltac:(lia) Hq) as (k' & t' & A1 & A2 & A3 & A4). rewrite <- A4. apply (Fut k'); auto. apply (K5 k' t'); auto.
Qed.

(** ** Samples of a foot on the ground *)
Lemma feet_still : forall ops fops left right init dT srt out TL TR, sort_result (fp_steps left) (fp_steps right) srt ->
  generate_phases (settings_after ops) left right init dT srt = Ok out -> no_empty_phase (go_ph out) ->
  feet_compute (feet_history fops) dT (fp_steps left) (fp_steps right) (ph_left (go_ph out)) (ph_right (go_ph out)) (ph_shift (go_ph out)) = Ok (TL, TR) ->
  forall (b : bool) m, (m < length (foot_phases (go_ph out) b))%nat -> nth_error (foot_phases (go_ph out) b) m <> Some Swing -> exists first s, hd_error (foot_list (fp_steps left) (fp_steps right) b) = Some first
  /\ stands_on first (planned (go_ord out)) (go_ph out) b m s /\ nth_error (if b then TL else TR) m = Some (rest_at s).
Proof.
  intros ops fops left right init dT srt out TL TR Hs H Ne E b m Lm D.
  assert (Hh : 0 <= f_height (feet_history fops)).
  { unfold feet_compute, interpolate_foot in E. destruct (Rltb (f_height (feet_history fops)) 0) eqn:Q; [discriminate|]. apply Rltb_false in Q. lra. }
  destruct (C44_still_outside_swing_partial ops fops left right init dT srt out Hs H Ne Hh) as (TL' & TR' & l0 & r0 & E' & F1 & F2 & K).
  rewrite E in E'. injection E' as <- <-. destruct (K b) as [L K2].
  destruct (K2 m ltac:(lia)) as (s & x & S1 & S2 & S3 & _). exists (if b then l0 else r0), s. split; [destruct b; assumption|]. split; [exact S1|]. rewrite S2. f_equal. apply S3. exact D.
Qed.
Lemma spline_still : forall spl2 spl3 ops fops left right init dT srt out TL TR, sort_result (fp_steps left) (fp_steps right) srt ->
  generate_phases (settings_after ops) left right init dT srt = Ok out -> no_empty_phase (go_ph out) ->
  spline_compute spl2 spl3 (feet_history fops) dT (fp_steps left) (fp_steps right) (ph_left (go_ph out)) (ph_right (go_ph out)) (ph_shift (go_ph out)) = Ok (TL, TR) ->
  forall (b : bool) m, (m < length (foot_phases (go_ph out) b))%nat -> nth_error (foot_phases (go_ph out) b) m <> Some Swing -> exists first s, hd_error (foot_list (fp_steps left) (fp_steps right) b) = Some first
  /\ stands_on first (planned (go_ord out)) (go_ph out) b m s /\ nth_error (if b then TL else TR) m = Some (rest_at s).
Proof.
  intros spl2 spl3 ops fops left right init dT srt out TL TR Hs H Hne E b m Lm D.
  set (c := feet_history fops) in *. pose proof (feet_history_ok fops) as Hc. fold c in Hc.
  destruct (generate_inv _ _ _ _ _ _ _ (good_history ops) H) as (u0 & v0 & _ & _ & Hd & _ & _ & _ & _ & _ & P & _). destruct P.
  set (sw := swing_list spl2 spl3 c dT).
  assert (Lsw : forall n s0 s1, length (sw n s0 s1) = n) by (intros; apply swing_list_length).
  destruct (generated_feet ops left right init dT srt out (fun n s0 s1 => Ok (sw n s0 s1)) sw Hs H Hne (fun _ _ _ => eq_refl) Lsw b) as (first & T & F & El & L & FT).
  assert (Es : feet_loop (swing_spline spl2 spl3 c dT) (foot_phases (go_ph out) b) (tl (ph_shift (go_ph out))) 0 (foot_list (fp_steps left) (fp_steps right) b) = Ok T).
  { eapply (feet_loop_ext (swing_spline spl2 spl3 c dT) (fun n s0 s1 => Ok (sw n s0 s1)) sw); auto.
    - intros n s0 s1 Hn. apply swing_list_ok; auto.
    - intros i u w A B. destruct (ph_shift (go_ph out)) as [|z zs] eqn:Ez.
      + destruct i; cbn in B; [discriminate|destruct i; discriminate].
      + cbn [tl] in *. assert (z = 0%nat) by (unfold bnd in p_hd; rewrite Ez in p_hd; exact p_hd). subst z.
        apply (Hne i); rewrite Ez; assumption. }
  assert (ET : (if b then TL else TR) = T).
  { unfold spline_compute, spline_foot in E. destruct (Rltb (f_height c) 0); [discriminate|]. apply rbind_ok in E. destruct E as (x & E1 & E). apply rbind_ok in E. destruct E as (y & E2 & E). injection E as -> ->.
    destruct b; cbn [foot_list foot_phases] in Es; congruence. }
  destruct (FT m ltac:(lia)) as (s & S1 & S2 & _). exists first, s. split; [exact F|]. split; [exact S1|]. rewrite ET. apply S2. exact D.
Qed.
Lemma on_the_ground : forall ph m b, double_support ph m -> (m < length (foot_phases ph b))%nat /\ nth_error (foot_phases ph b) m <> Some Swing.
Proof.
  intros ph m b D. destruct (D b) as (p & D1 & D2). split; [apply nth_error_Some; congruence|]. rewrite D1. destruct D2; subst; discriminate.
Qed.
Lemma feet_rest : forall ops fops left right init dT srt out TL TR, sort_result (fp_steps left) (fp_steps right) srt ->
  generate_phases (settings_after ops) left right init dT srt = Ok out -> no_empty_phase (go_ph out) ->
  feet_compute (feet_history fops) dT (fp_steps left) (fp_steps right) (ph_left (go_ph out)) (ph_right (go_ph out)) (ph_shift (go_ph out)) = Ok (TL, TR) ->
  forall (b : bool) m, double_support (go_ph out) m -> exists first s, hd_error (foot_list (fp_steps left) (fp_steps right) b) = Some first
  /\ stands_on first (planned (go_ord out)) (go_ph out) b m s /\ nth_error (if b then TL else TR) m = Some (rest_at s).
Proof.
  intros ops fops left right init dT srt out TL TR Hs H Ne E b m D. destruct (on_the_ground _ _ b D). eapply feet_still; eauto.
Qed.
Lemma spline_rest : forall spl2 spl3 ops fops left right init dT srt out TL TR, sort_result (fp_steps left) (fp_steps right) srt ->
  generate_phases (settings_after ops) left right init dT srt = Ok out -> no_empty_phase (go_ph out) ->
  spline_compute spl2 spl3 (feet_history fops) dT (fp_steps left) (fp_steps right) (ph_left (go_ph out)) (ph_right (go_ph out)) (ph_shift (go_ph out)) = Ok (TL, TR) ->
  forall (b : bool) m, double_support (go_ph out) m -> exists first s, hd_error (foot_list (fp_steps left) (fp_steps right) b) = Some first
  /\ stands_on first (planned (go_ord out)) (go_ph out) b m s /\ nth_error (if b then TL else TR) m = Some (rest_at s).
Proof.
  intros spl2 spl3 ops fops left right init dT srt out TL TR Hs H Hne E b m D. destruct (on_the_ground _ _ b D). eapply spline_still; eauto.
Qed.

(** ** The first sample *)
Lemma first_shift : forall g dT init fl fr pl ph, PhOk g dT init fl fr pl ph -> no_empty_phase ph -> (0 < bnd ph 1)%nat.
Proof.
  intros g dT init fl fr pl ph P Ne. destruct P. apply (Ne 0%nat); [rewrite (nth_error_nth' _ 0%nat) by lia; f_equal; exact p_hd|apply nth_error_nth'; lia].
Qed.
Lemma start_support : forall g dT init fl fr pl ph, PhOk g dT init fl fr pl ph -> no_empty_phase ph -> double_support ph 0.
Proof.
  intros g dT init fl fr pl ph P Ne. pose proof (first_shift _ _ _ _ _ _ _ P Ne). apply (inside_switch g dT init fl fr pl ph 0 P). exists 0%nat. destruct P. cbn [Nat.mul Nat.add]. rewrite p_hd. lia.
Qed.
Lemma start_stands : forall g dT init fl fr pl ph first b s, PhOk g dT init fl fr pl ph -> no_empty_phase ph -> stands_on first pl ph b 0 s -> s = first.
Proof.
  intros g dT init fl fr pl ph first b s P Ne [(k & t & K1 & _ & K3 & _)|[-> _]]; auto. exfalso. pose proof (first_shift _ _ _ _ _ _ _ P Ne). destruct P. assert (k < length pl)%nat by (apply nth_error_Some; congruence).
  assert (bnd ph 1 <= bnd ph (2 * k + 2))%nat by (apply p_mono; lia). lia.
Qed.
Lemma rest_same : forall a b, st_pos a = st_pos b -> st_angle a = st_angle b -> rest_at a = rest_at b.
Proof. intros a b E1 E2. unfold rest_at. rewrite E1, E2. reflexivity. Qed.

(** ** What re-planning hands over without measurements *)
Lemma present_one : forall fp init s s', present fp init s -> present fp init s' -> s = s'.
Proof.
  intros fp init s s2 (p1 & q1 & A1 & A2 & A3) (p2 & q2 & B1 & B2 & B3). rewrite A1 in B1. clear A1.
  revert p2 B1. induction p1 as [|x p1 IH]; intros [|y p2] E; cbn in E; injection E as E1 E2; auto.
  - rewrite E2 in A3. rewrite Forall_forall in A3. specialize (A3 s2). rewrite in_app_iff in A3. cbn in A3. specialize (A3 ltac:(auto)). lra.
  - rewrite <- E2 in B3. rewrite Forall_forall in B3. specialize (B3 s). rewrite in_app_iff in B3. cbn in B3. specialize (B3 ltac:(auto)). lra.
  - apply (IH p2); auto.
Qed.
Lemma replan_places : forall plan garbage g init tend mL mR g', keeps_places plan -> replan plan garbage g init tend mL mR CNone = (g', true) ->
  exists pl pr a b, present (gn_left g) init pl /\ present (gn_right g) init pr
  /\ hd_error (fp_steps (gn_left g')) = Some a /\ hd_error (fp_steps (gn_right g')) = Some b
  /\ st_pos a = st_pos pl /\ st_angle a = st_angle pl /\ st_pos b = st_pos pr /\ st_angle b = st_angle pr.
Proof.
  intros plan garbage g init tend mL mR g' Kp H. destruct (replan_inv _ _ _ _ _ _ _ _ _ H) as (pl & pr & l1 & r1 & l2 & r2 & P1 & P2 & Hh & Hp & E1 & E2).
  assert (Pos : 0 <= st_time pl /\ 0 <= st_time pr).
  { unfold replan in H. destruct (fp_keepPresent init (gn_left g)) as [l okl] eqn:El. destruct okl; cbn [negb] in H; [|discriminate].
    destruct (fp_keepPresent init (gn_right g)) as [r okr] eqn:Er. destruct okr; cbn [negb] in H; [|discriminate].
    destruct (keep_inv _ _ _ El) as (pl' & P1' & _ & T1). destruct (keep_inv _ _ _ Er) as (pr' & P2' & _ & T2).
    rewrite (present_one _ _ _ _ P1 P1'), (present_one _ _ _ _ P2 P2'). auto. }
  destruct Hh as (tl & tr & Nt & K1 & K2). cbn [corr_left corr_right] in *. unfold kept in K1, K2.
  assert (Tp : 0 <= tl /\ 0 <= tr).
  { unfold new_times in Nt. destruct (should_reset garbage g); [destruct Nt as [-> ->]; split; (eapply Rle_trans; [|apply Rmax_l]; lra)|]. destruct Nt as [_ Nt]. destruct Nt as [-> ->]; [intros [[? _]|[? _]]; discriminate|]. auto. }
  destruct (Kp l1 r1 init tend l2 r2 _ _ (f_equal fp_steps K1) (f_equal fp_steps K2)) as (a & b & A1 & B1 & A2 & A3 & B2 & B3); cbn [st_time]; try tauto; auto.
  exists pl, pr, a, b. rewrite E1, E2. cbn in *. repeat (split; [assumption|]). assumption.
Qed.

(** ** Calls that generate *)
Lemma perform_from : forall spl hspl fspl g0 c g init dT srt, perform spl hspl fspl g0 c = (g, Done) -> generation_at c = Some (init, dT, srt) ->
  exists ga, generate_from spl hspl fspl ga (gn_left g) (gn_right g) init dT srt = (g, Done) /\ gn_set ga = gn_set g0 /\ gn_feet ga = gn_feet g0 /\ gn_cub ga = gn_cub g0 /\ gn_com ga = gn_com g0.
Proof.
  intros spl hspl fspl g0 c g init dT srt H Hc. 
  assert (Fr : forall ga l r, generate_from spl hspl fspl ga l r init dT srt = (g, Done) -> generate_from spl hspl fspl ga (gn_left g) (gn_right g) init dT srt = (g, Done)).
  { intros ga l r E. destruct (from_keeps spl hspl fspl ga l r init dT srt) as (_ & _ & A & B & _). rewrite E in A, B. cbn [fst] in A, B. rewrite A, B. exact E. }
  destruct c as [e|l r i d s|p i d t s|p gb i d t mL mR k s]; cbn [generation_at] in Hc; [discriminate| | |]; injection Hc as -> -> ->; cbn [perform] in H.
  - exists g0. split; [eapply Fr; eauto|]. auto.
  - unfold generate in H. destruct (p _ _ _ _) as [[l r] [|]]; cbn [negb] in H; [|discriminate]. exists (with_fps l r g0). split; [eapply Fr; eauto|]. destruct g0; auto.
  - unfold regenerate in H. pose proof (replan_keeps p gb g0 init t mL mR k) as K. pose proof (replan_keeps2 p gb g0 init t mL mR k) as K2. destruct (replan _ _ _ _ _ _ _ _) as [g1 [|]]; cbn [negb fst] in *; [|discriminate].
    exists g1. split; [eapply Fr; eauto|]. intuition.
Qed.
Lemma configure_keeps : forall spl hspl fspl cs g g' os, List.Forall (fun c => is_generation c = false) cs -> session spl hspl fspl g cs = Some (g', os) -> gn_left g' = gn_left g /\ gn_right g' = gn_right g.
Proof.
  intros spl hspl fspl. induction cs as [|c cs IH]; intros g g' os F H; cbn [session] in H; [injection H as <- _; auto|].
  inversion F as [|? ? F1 F2]; subst. destruct c; try discriminate. cbn [perform] in H. destruct (session _ _ _ (gn_call g e) cs) as [[h o]|] eqn:E; [|discriminate]. injection H as <- _.
  destruct (IH _ _ _ F2 E) as [A B]. rewrite A, B. destruct g, e; auto.
Qed.

(** ** The planner keeps the places of the first steps *)
Lemma planner_keeps_places : forall c e plan, good_cfg c -> plans c e plan -> keeps_places plan.
Proof.
  intros c e plan G P l r i t l2 r2 a b Ha Hb Ta Tb H.
  assert (Nl : nonneg_times (fp_steps l)) by (rewrite Ha; constructor; [exact Ta|constructor]). assert (Nr : nonneg_times (fp_steps r)) by (rewrite Hb; constructor; [exact Tb|constructor]).
  destruct (P l r i t Nl Nr) as [(fuel & lf & rf & sw & sl & Q & E)|[_ E]]; [|rewrite H in E; discriminate]. rewrite H in E. injection E as -> ->.
  destruct (plan_spec _ _ _ _ _ _ _ _ _ _ _ G Nl Nr Q) as (ls0 & rs0 & sw0 & prev0 & sol & adds & term & S1 & _ & _ & _ & _ & _ & _ & _ & _ & _ & _ & _ & [(_ & _ & E1 & E2)|(_ & Sy)]).
  - destruct S1 as [(_ & -> & ->)|(E & _)]; [|congruence]. rewrite Ha in E1. rewrite Hb in E2. unfold fsteps in E1, E2. rewrite E1, E2. cbn. exists a, b. auto 10.
  - destruct S1 as [(_ & -> & ->)|(E & _)]; [|congruence]. rewrite Ha, Hb in Sy. destruct Sy as (x & y & a' & b' & X & Y & A & B & _ & _ & R1 & R2 & Pa & Pb & _). cbn in X, Y. injection X as <-. injection Y as <-. cbn in R1, R2.
    unfold fsteps in *. exists a', b'.
    assert (S : forall (u : list step) z, last_opt u = Some z -> removelast u = [] -> u = [z]). { clear. intros [|u1 [|u2 u]] z; cbn; congruence. }
    rewrite (S _ _ A R1), (S _ _ B R2). cbn. unfold placed in Pa, Pb. injection Pa as -> ->. injection Pb as -> ->. auto 10.
Qed.

(** ** The seam *)
Section Seam.
Variable spl : R -> R -> R -> R -> R -> R -> pva.
Variable hspl : R -> R -> R -> R -> pva.
Variable fspl : swing_splines.

(** Configured by calls of its own setters only. *)
Definition com_sane (g : gen) : Prop := forall c, gn_com g = Some c -> exists ops, c = h_history ops.
Lemma com_sane_perform : forall g c, com_sane g -> com_sane (fst (perform spl hspl fspl g c)).
Proof.
  intros g c S0. assert (Eq : forall g', gn_com g' = gn_com g -> com_sane g') by (intros g' E x Hx; apply S0; congruence).
  destruct c as [e|l r i d s|p i d t s|p gb i d t mL mR k s]; cbn [perform fst].
  - destruct g as [s0 l r f z d h a b c p i j k]. unfold com_sane in *. cbn in S0. destruct e; cbn; auto.
    + destruct h as [h|]; cbn; auto. intros c0 [= <-]. exists []. reflexivity.
    + intros c0 Hc. destruct h as [h|]; [|discriminate]. cbn in Hc. injection Hc as <-. destruct (S0 h eq_refl) as (ops & ->). exists (ops ++ [(nom, delta)]). unfold h_history. rewrite fold_left_app. reflexivity.
  - apply Eq. destruct (from_keeps spl hspl fspl g l r i d s) as (_ & _ & _ & _ & C & _). exact C.
  - unfold generate. destruct (p _ _ _ _) as [[l r] [|]]; cbn [negb fst]; [|apply Eq; destruct g; auto]. apply Eq. destruct (from_keeps spl hspl fspl (with_fps l r g) l r i d s) as (_ & _ & _ & _ & C & _). rewrite C. destruct g; auto.
  - unfold regenerate. pose proof (replan_keeps2 p gb g i t mL mR k) as K. destruct (replan _ _ _ _ _ _ _ _) as [g1 [|]]; cbn [negb fst] in *; destruct K as (_ & K & _); [|apply Eq; auto].
    apply Eq. destruct (from_keeps spl hspl fspl g1 (gn_left g1) (gn_right g1) i d s) as (_ & _ & _ & _ & C & _). congruence.
Qed.
Lemma com_sane_session : forall cs g g' os, com_sane g -> session spl hspl fspl g cs = Some (g', os) -> com_sane g'.
Proof.
  induction cs as [|c r IH]; intros g g' os S0 H; cbn [session] in H; [injection H as <- _; auto|].
  pose proof (com_sane_perform g c S0) as S1. destruct (perform spl hspl fspl g c) as [g1 o]. cbn [fst] in S1. destruct o; try discriminate; destruct (session spl hspl fspl g1 r) as [[h os']|] eqn:E; try discriminate; injection H as <- _; eauto.
Qed.

(** The steps on which the feet stand at [m] are, in place, the first ones of the new foot prints. *)
Lemma seam_steps : forall ops g1 out init dT srt m plan garbage tend mL mR g2, keeps_places plan ->
  sort_result (fp_steps (gn_left g1)) (fp_steps (gn_right g1)) srt ->
  generate_phases (settings_after ops) (gn_left g1) (gn_right g1) init dT srt = Ok out -> punctual init dT out m ->
  replan plan garbage g1 (init + INR m * dT) tend mL mR CNone = (g2, true) ->
  forall b first first' s, hd_error (foot_list (fp_steps (gn_left g1)) (fp_steps (gn_right g1)) b) = Some first ->
  hd_error (foot_list (fp_steps (gn_left g2)) (fp_steps (gn_right g2)) b) = Some first' ->
  stands_on first (planned (go_ord out)) (go_ph out) b m s -> rest_at first' = rest_at s.
Proof.
  intros ops g1 out init dT srt m plan garbage tend mL mR g2 Kp Hs Gen Pu H b first first' s F F' St.
  pose proof (stands_present ops _ _ _ _ _ _ _ _ _ _ Hs Gen Pu F St) as Pr.
  destruct (replan_places _ _ _ _ _ _ _ _ Kp H) as (pl & pr & a & b' & P1 & P2 & A1 & B1 & A2 & A3 & B2 & B3).
  destruct b; cbn [foot_list] in F'; [assert (first' = a) by congruence; assert (s = pl) by (eapply present_one; eauto)|assert (first' = b') by congruence; assert (s = pr) by (eapply present_one; eauto)]; subst; apply rest_same; assumption.
Qed.
End Seam.
