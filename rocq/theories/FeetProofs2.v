(** Generated phases that are not empty, and the feet trajectories of a generated walk. *)
From Coq Require Import String Reals Lra Lia ZArith List Bool Sorting.Sorted Sorting.Permutation.
From Flocq Require Import Core.Raux.
From Verif Require Import Prelude Rounding FootPrint GenPhases GenSpec GenProofs GenProofs2 GenProofs3 GenProofs4
  FeetTraj FeetSpec FeetProofs.
Import ListNotations.
Open Scope R_scope.

Lemma nround_pos : forall x, / 2 <= x -> (1 <= nround x)%nat.
Proof.
  intros x H. rewrite <- (nround_imp (/ 2) 1) by (cbn; lra). apply nround_mono. lra.
Qed.

Lemma switch_nonempty : forall g dT f sf t, good_settings g -> 0 < dT -> 0 <= t ->
  dT <= 2 * g_switchPct g * g_nomStep g -> dT <= g_switchPct g * t ->
  (0 < nround (switch_time g (g_nomStep g - g_switchPct g * g_nomStep g) f sf t / dT))%nat.
Proof.
  intros g dT f sf t G Hd Ht H1 H2. apply nround_pos.
  assert (D : dT / 2 <= switch_time g (g_nomStep g - g_switchPct g * g_nomStep g) f sf t).
  { destruct G as [[P0 P1] E [N1 N2] M]. unfold switch_time. set (p := g_switchPct g) in *.
    destruct (f && negb sf).
    - replace (p / (1 - p / 2) * t / 2) with (p * t / 2 * (2 / (2 - p))) by (field; lra).
      assert (1 <= 2 / (2 - p)) by (apply (Rmult_le_reg_r (2 - p)); [lra|]; field_simplify; lra).
      assert (p * t / 2 * 1 <= p * t / 2 * (2 / (2 - p))) by (apply Rmult_le_compat_l; lra). lra.
    - destruct (g_pause g && Rgtb t (g_maxStep g)) eqn:Ep; [|lra].
      apply andb_prop in Ep. destruct Ep as [_ Ep]. unfold Rgtb in Ep. apply Rltb_true in Ep. lra. }
  apply (Rmult_le_reg_r dT); auto. replace (_ / dT * dT) with (switch_time g (g_nomStep g - g_switchPct g * g_nomStep g) f sf t) by (field; lra). lra.
Qed.

Lemma loop_switches : forall g dT init nl nr sf lead gap tl done k s s', good_settings g -> 0 < dT ->
  dT <= 2 * g_switchPct g * g_nomStep g ->
  dT <= g_switchPct g * (gap - dT / 2) -> dT <= g_switchPct g * lead ->
  k = (2 + length done)%nat -> Inv dT init done s ->
  (forall j, (j < length done)%nat -> (sh s (2 * j) < sh s (2 * j + 1))%nat) ->
  match rev done with [] => spaced init lead (map t_step (firstn 1 tl)) | t :: _ => spaced (st_time (t_step t)) gap (map t_step (firstn 1 tl)) end ->
  (match tl with [] => True | t :: r => spaced (st_time (t_step t)) gap (map t_step r) end) ->
  cp_loop g dT (g_nomStep g - g_switchPct g * g_nomStep g) nl nr sf k tl s = Ok s' ->
  (forall j, (j < length (done ++ tl))%nat -> (sh s' (2 * j) < sh s' (2 * j + 1))%nat).
Proof.
  intros g dT init nl nr sf lead gap tl. induction tl as [|nx tl IH]; intros done k s s' G Hd Hn Hg Hl Hk I Hsw H1 H2 H; simpl in H.
  - inversion H; subst. rewrite app_nil_r. auto.
  - apply rbind_ok in H. destruct H as (s1 & Hs1 & H).
    pose proof (Inv_step _ _ _ _ _ _ _ _ _ _ _ G Hd Hk I Hs1) as I1.
    destruct (cp_step_inv _ _ _ _ _ _ _ _ _ G Hd Hs1) as (T0 & Hle & _ & _ & _ & Hsh & _). cbv zeta in *.
    assert (P1 : 0 < g_switchPct g) by (pose proof (good_pct g G); lra).
    assert (T : dT <= g_switchPct g * (st_time (t_step nx) - c_prev s)).
    { destruct (rev done) as [|t rd] eqn:E.
      - simpl in H1. assert (done = []) by (rewrite <- (rev_involutive done), E; reflexivity). subst done.
        destruct I. simpl in i_cur. rewrite i_hd in i_cur. rewrite <- i_cur in i_prev. simpl in i_prev.
        assert (g_switchPct g * lead <= g_switchPct g * (st_time (t_step nx) - c_prev s)) by (apply Rmult_le_compat_l; lra). lra.
      - assert (Hd' : done = rev rd ++ [t]) by (rewrite <- (rev_involutive done), E; reflexivity).
        pose proof (prev_close _ _ _ _ _ I (ex_intro _ _ Hd')) as C. apply Rabs_le_inv in C. simpl in H1.
        assert (g_switchPct g * (gap - dT / 2) <= g_switchPct g * (st_time (t_step nx) - c_prev s)) by (apply Rmult_le_compat_l; lra). lra. }
    pose proof (switch_nonempty g dT (Nat.eqb k 2) sf _ G Hd T0 Hn T) as SW.
    replace (done ++ nx :: tl) with ((done ++ [nx]) ++ tl) by (rewrite <- app_assoc; reflexivity).
    apply (IH (done ++ [nx]) (S k) s1 s'); auto.
    + rewrite app_length. simpl. lia.
    + rewrite app_length. cbn [length]. intros j Hj. destruct I. unfold sh in *. rewrite Hsh, !nth_snoc2, i_len.
      destruct (Nat.eq_dec j (length done)) as [->|].
      * destruct (Nat.ltb_spec (2 * length done + 1) (2 * length done + 1)); [lia|]. rewrite Nat.eqb_refl.
        destruct (Nat.ltb_spec (2 * length done) (2 * length done + 1)); [|lia].
        rewrite <- i_cur. lia.
      * destruct (Nat.ltb_spec (2 * j + 1) (2 * length done + 1)); [|lia].
        destruct (Nat.ltb_spec (2 * j) (2 * length done + 1)); [|lia]. apply Hsw. lia.
    + rewrite rev_app_distr. simpl. destruct tl as [|t2 tl]; simpl; auto. simpl in H2. tauto.
    + destruct tl as [|t2 tl]; auto. simpl in H2. tauto.
Qed.

Lemma create_switches : forall g dT init nl nr fl fr ord lead gap ph, good_settings g -> 0 < dT ->
  dT <= 2 * g_switchPct g * g_nomStep g ->
  dT <= g_switchPct g * (gap - dT / 2) -> dT <= g_switchPct g * lead ->
  match planned ord with [] => True | t :: q => init + lead <= st_time (t_step t) /\ spaced (st_time (t_step t)) gap (map t_step q) end ->
  create_phases g dT init nl nr fl fr ord = Ok ph ->
  forall k, (k < length (planned ord))%nat -> (bnd ph (2 * k) < bnd ph (2 * k + 1))%nat.
Proof.
  intros g dT init nl nr fl fr [|a [|b [|c tl0]]] lead gap ph G Hd Hn Hg Hl Hsp H; try discriminate.
  - simpl. intros; lia.
  - unfold planned in *. cbn [tl] in *. cbn [create_phases] in H.
    set (pl := c :: tl0) in *.
    apply rbind_ok in H. destruct H as (tot & _ & H).
    apply rbind_ok in H. destruct H as (s & Hs & H).
    assert (I : Inv dT init pl s).
    { change pl with ([] ++ pl). eapply Inv_loop; [exact G|exact Hd| |apply Inv_0|exact Hs]. reflexivity. }
    assert (SW : forall j, (j < length ([] ++ pl))%nat -> (sh s (2 * j) < sh s (2 * j + 1))%nat).
    { eapply loop_switches; [exact G|exact Hd|exact Hn|exact Hg|exact Hl| |apply Inv_0| | | |exact Hs]; auto.
      - simpl. intros; lia.
      - simpl. tauto.
      - simpl. tauto. }
    simpl app in SW.
    apply rbind_ok in H. destruct H as (es & _ & H). apply rbind_ok in H. destruct H as (ml & _ & H).
    inversion H; subst ph; clear H. intros k Hk. unfold bnd; cbn [ph_shift]. rewrite !nth_snoc.
    destruct I. rewrite i_len. specialize (SW k Hk). unfold sh in SW.
    destruct (Nat.ltb_spec (2 * k + 1) (2 * length pl + 1)); [|lia].
    destruct (Nat.ltb_spec (2 * k) (2 * length pl + 1)); [|lia]. auto.
Qed.

(** Conditions on a walk under which no phase is empty. *)
Lemma walk_not_empty : forall g left right init dT srt out lead gap, good_settings g ->
  sort_result (fp_steps left) (fp_steps right) srt ->
  walk (fp_steps left) (fp_steps right) init lead gap ->
  dT <= 2 * g_switchPct g * g_nomStep g -> dT <= (1 - g_switchPct g) * g_nomStep g ->
  dT <= g_switchPct g * (gap - dT / 2) -> dT <= (1 - g_switchPct g) * (gap - dT / 2) ->
  dT <= g_switchPct g * lead -> dT <= (1 - g_switchPct g) * lead ->
  dT <= 2 * g_endSwitch g ->
  generate_phases g left right init dT srt = Ok out -> no_empty_phase (go_ph out).
Proof.
  intros g left right init dT srt out lead gap G Hsr W Hn1 Hn2 Hg1 Hg2 Hl1 Hl2 He H.
  pose proof (generate_swings _ _ _ _ _ _ _ _ _ G Hsr W Hn2 Hg2 Hl2 H) as SW.
  assert (SS : forall k, (k < length (planned (go_ord out)))%nat -> (bnd (go_ph out) (2 * k) < bnd (go_ph out) (2 * k + 1))%nat).
  { destruct Hsr as [P Sd].
    assert (Hd : 0 < dT). { destruct (generate_inv _ _ _ _ _ _ _ G H) as (? & ? & _ & _ & D & _). auto. }
    assert (Hg0 : 0 < gap).
    { pose proof (good_pct g G). destruct (Rle_or_lt (gap - dT / 2) 0).
      - assert ((1 - g_switchPct g) * (gap - dT / 2) <= (1 - g_switchPct g) * 0) by (apply Rmult_le_compat_l; lra). lra.
      - lra. }
    unfold generate_phases, fp_number in H.
    destruct (fp_steps left) as [|l0 l] eqn:El; [discriminate|].
    destruct (fp_steps right) as [|r0 r] eqn:Er; [discriminate|]. cbn [length Nat.ltb Nat.leb] in H.
    destruct (String.eqb _ _); [discriminate|]. destruct (Rleb dT 0); [discriminate|]. destruct (Rltb _ _); [discriminate|].
    apply rbind_ok in H. destruct H as (ord & Ho & H). apply rbind_ok in H. destruct H as (ph & Hp & H).
    inversion H; subst out; clear H. cbn [go_ord go_ph].
    assert (Es : enumerates (l0 :: l) (r0 :: r) srt) by (eapply enumerates_perm; [apply Permutation_sym; exact P|apply all_steps_enumerates]).
    destruct (ord_structure _ _ _ _ _ _ Hg0 W Es Sd) as (a & b & pl & -> & A1 & A2 & A3 & A4 & A5 & A6 & A7 & A8 & A9).
    assert (Sp : StronglySorted tle pl) by (inversion Sd as [|? ? Q ?]; inversion Q; auto).
    pose proof (planned_spaced _ _ _ _ _ pl Hg0 W A8 A9 Sp) as SP.
    eapply create_switches; [exact G|exact Hd|exact Hn1|exact Hg1|exact Hl1| |exact Hp].
    rewrite (order_planned _ _ Ho). exact SP. }
  destruct (generate_inv _ _ _ _ _ _ _ G H) as (l0 & r0 & _ & _ & Hd & _ & _ & _ & _ & _ & P & _). destruct P.
  set (ph := go_ph out) in *. set (pl := planned (go_ord out)) in *.
  assert (E1 : (1 <= nround (g_endSwitch g / dT))%nat).
  { apply nround_pos. apply (Rmult_le_reg_r dT); auto. replace (g_endSwitch g / dT * dT) with (g_endSwitch g) by (field; lra). lra. }
  intros i a b Ha Hb.
  assert (Hi : (i < 2 * length pl + 1)%nat). { assert (S i < length (ph_shift ph))%nat by (apply nth_error_Some; congruence). lia. }
  assert (Ea : a = bnd ph i) by (unfold bnd; erewrite nth_error_nth; eauto).
  assert (Eb : b = bnd ph (S i)) by (unfold bnd; erewrite nth_error_nth; eauto). subst a b.
  destruct (Nat.eq_dec i (2 * length pl)) as [->|Hne].
  { replace (S (2 * length pl)) with (2 * length pl + 1)%nat by lia. lia. }
  destruct (Nat.Even_or_Odd i) as [[k Ek]|[k Ek]]; subst i.
  - replace (S (2 * k)) with (2 * k + 1)%nat by lia. apply SS. lia.
  - replace (S (2 * k + 1)) with (2 * k + 2)%nat by lia. apply SW. lia.
Qed.

(** ** The trajectory of each foot *)
Lemma shift_map : forall (l : list nat), l = map (fun i => nth i l 0%nat) (seq 0 (length l)).
Proof.
  induction l as [|a l IH]; [reflexivity|]. cbn [length seq map nth]. f_equal. rewrite <- seq_shift, map_map. exact IH.
Qed.

Lemma skipn_cons : forall (A : Type) n (l : list A) x, nth_error l n = Some x -> skipn n l = x :: skipn (S n) l.
Proof. induction n as [|n IH]; intros [|a l] x H; cbn in H; try discriminate; [injection H as ->; reflexivity|]. exact (IH l x H). Qed.

Lemma mine_steps : forall b pl steps, (forall t, In t pl -> t_left t = b -> nth_error steps (t_idx t) = Some (t_step t)) ->
  forall n m, foot_indices b pl = seq n m -> length steps = (n + m)%nat -> mine b pl = skipn n steps.
Proof.
  intros b pl steps. induction pl as [|t r IH]; intros H n m Hi Hl; cbn [mine] in *.
  - destruct m; [|discriminate]. rewrite skipn_all2 by lia. reflexivity.
  - unfold foot_indices in Hi. cbn [filter] in Hi. destruct (Bool.eqb (t_left t) b) eqn:E.
    + apply Bool.eqb_prop in E. cbn [map] in Hi. destruct m; [discriminate|]. cbn [seq] in Hi. injection Hi as Hn Hr.
      rewrite (IH (fun t H0 => H t (or_intror H0)) (S n) m Hr ltac:(lia)).
      pose proof (H t (or_introl eq_refl) E) as Ht. rewrite Hn in Ht. symmetry. apply skipn_cons. exact Ht.
    + apply (IH (fun t H0 => H t (or_intror H0)) n m); auto.
Qed.

(** The whole trajectory of a foot, for any swing interpolation. *)
Lemma feet_walk : forall g dT init l0 r0 left right ord ph (swing : nat -> step -> step -> res (list sample)) sw,
  PhOk g dT init (st_time l0) (st_time r0) (planned ord) ph ->
  (forall k t, nth_error (planned ord) k = Some t -> nth_error (foot_list left right (t_left t)) (t_idx t) = Some (t_step t)) ->
  foot_indices true (planned ord) = seq 1 (length left - 1) -> foot_indices false (planned ord) = seq 1 (length right - 1) ->
  no_empty_phase ph -> (forall n s0 s1, swing n s0 s1 = Ok (sw n s0 s1)) -> (forall n s0 s1, length (sw n s0 s1) = n) ->
  forall b first, hd_error (foot_list left right b) = Some first ->
  feet_loop swing (foot_phases ph b) (tl (ph_shift ph)) 0 (foot_list left right b) = Ok (motion (bnd ph) b sw 0 first (planned ord)).
Proof.
  intros g dT init l0 r0 left right ord ph swing sw P Hst Hil Hir Hne Hsw Hswl b first Hf. destruct P.
  set (pl := planned ord) in *.
  destruct (foot_list left right b) as [|s0 rest] eqn:Efl; [discriminate|]. cbn in Hf. injection Hf as ->.
  assert (Em : rest = mine b pl ++ []).
  { rewrite app_nil_r. symmetry. rewrite (mine_steps b pl (first :: rest)) with (n := 1%nat) (m := (length rest)); [reflexivity| |destruct b; cbn [foot_list] in Efl|reflexivity].
    - intros t Ht Eb. apply In_nth_error in Ht. destruct Ht as [k Hk]. specialize (Hst k t Hk). rewrite Eb, Efl in Hst. exact Hst.
    - rewrite Hil, Efl. cbn. f_equal. lia.
    - rewrite Hir, Efl. cbn. f_equal. lia. }
  rewrite Em. 
  assert (Hs : forall i, (i <= 2 * length pl)%nat -> (bnd ph i < bnd ph (S i))%nat).
  { intros i Hi. apply (Hne i); unfold bnd; apply nth_error_nth'; lia. }
  assert (Esh : tl (ph_shift ph) = map (bnd ph) (seq (2 * 0 + 1) (2 * length pl + 1))).
  { rewrite (shift_map (ph_shift ph)), p_len. replace (2 * length pl + 2)%nat with (S (2 * length pl + 1)) by lia. cbn [seq map tl]. reflexivity. }
  rewrite Esh. pose proof (loop_motion (bnd ph) b sw Hswl (foot_phases ph b) swing Hsw pl 0 first (length pl) []) as L.
  replace (bnd ph (2 * 0)) with 0%nat in L by (symmetry; exact p_hd). apply L; clear L; auto.
  - intros j t Hj. cbn [Nat.add]. destruct (p_win j t Hj) as (W1 & W2 & W3 & W4).
    destruct (Bool.bool_dec (t_left t) b) as [Eb|Eb].
    + rewrite Eb in *. exists SwitchOut, Swing. repeat split; auto; try discriminate.
    + assert (En : negb (t_left t) = b) by (destruct (t_left t), b; cbn; congruence). rewrite En in *.
      exists SwitchIn, Stance. repeat split; auto; try discriminate; intros; congruence.
  - destruct p_end as [E1 E2]. destruct (Bool.bool_dec (last_mover (st_time l0) (st_time r0) pl) b) as [Eb|Eb].
    + rewrite Eb in E1. exists SwitchIn. split; auto. discriminate.
    + assert (En : negb (last_mover (st_time l0) (st_time r0) pl) = b) by (destruct (last_mover _ _ _), b; cbn; congruence). rewrite En in E2.
      exists SwitchOut. split; auto. discriminate.
Qed.
