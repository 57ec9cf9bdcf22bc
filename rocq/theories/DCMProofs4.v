(** Lemmas about the DCM trajectories: from accepted foot prints to the outputs. *)
From Coq Require Import String Reals Lra Lia ZArith List Bool Sorting.Sorted Sorting.Permutation.
From Verif Require Import Prelude EvalTac Rounding FootPrint GenPhases GenSpec GenProofs GenProofs2 GenProofs3 Properties_Generator
  FeetTraj FeetSpec FeetProofs FeetProofs2 ZMP ZMPSpec ZMPProofs4 ZMPProofs5 DCM DCMSpec DCMProofs DCMProofs2 DCMProofs3.
Import ListNotations.
Open Scope R_scope.
Notation Forall := List.Forall.

(** The initial state that a generation uses. *)
Definition start_state (c : dcfg) (l0 r0 : step) : vec2 * vec2 :=
  match dc_init c with Some x => x | None => (mid (vadd (st_pos l0) (dc_offL c)) (vadd (st_pos r0) (dc_offR c)), vzero) end.

Section Run.
Variable ops : list gop.
Let g := settings_after ops.
Variables left right : footprint.
Variables init dT : R.
Variable srt : list tstep.
Variable out : genout.
Hypothesis Srt : sort_result (fp_steps left) (fp_steps right) srt.
Hypothesis Gen : generate_phases g left right init dT srt = Ok out.
Hypothesis Nm : named_feet left right.
Variable c : dcfg.
Let Z := ztimes_of g.
Let ph := go_ph out.
Let pl := planned (go_ord out).
Let m := length pl.
Let steps := map t_step (go_ord out).
Let E := INR (bnd ph (2 * m + 1)) * dT.

Lemma g_good : good_settings g.
Proof. apply good_history. Qed.
Lemma ord_length : length (go_ord out) = (m + 2)%nat.
Proof.
  destruct (generate_inv _ _ _ _ _ _ _ g_good Gen) as (_ & _ & _ & _ & _ & _ & _ & _ & _ & L & _). unfold m, pl, planned.
  destruct (go_ord out) as [|a [|b' r]]; cbn in *; lia.
Qed.
Lemma planned_nth : forall k, nth_error pl k = nth_error (go_ord out) (k + 2).
Proof.
  intros k. unfold pl, planned. pose proof ord_length as L. destruct (go_ord out) as [|a [|b' r]]; cbn [length] in L; [lia|lia|].
  replace (k + 2)%nat with (S (S k)) by lia. reflexivity.
Qed.
Lemma ord_step : forall k t, nth_error (go_ord out) k = Some t ->
  nth_error (foot_list (fp_steps left) (fp_steps right) (t_left t)) (t_idx t) = Some (t_step t) /\ zmp_at c (t_step t) = Ok (zmp_of_step c t).
Proof.
  intros k [b' i s] H. destruct (run_order g g_good left right init dT srt out Gen Srt) as [[_ En] _]. apply nth_error_In, En in H. cbn [t_left t_idx t_step].
  split; auto. apply nth_error_In in H. destruct Nm as [N1 N2]. unfold zmp_at, zmp_of_step, offset_of, world_of. cbn [t_left t_step]. destruct b'; cbn [foot_list] in H.
  - rewrite (N1 s H). cbn [String.eqb Ascii.eqb Bool.eqb rbind]. f_equal. apply vec2_ext; cbn; ring.
  - rewrite (N2 s H). cbn [String.eqb Ascii.eqb Bool.eqb rbind]. f_equal. apply vec2_ext; cbn; ring.
Qed.
Definition zsf (k : nat) : vec2 := match nth_error (go_ord out) k with Some t => zmp_of_step c t | None => vzero end.
Lemma steps_zmp : forall k s, nth_error steps k = Some s -> zmp_at c s = Ok (zsf k).
Proof.
  intros k s H. unfold steps in H. rewrite nth_error_map in H. destruct (nth_error (go_ord out) k) as [t|] eqn:Et; [|discriminate]. injection H as <-.
  unfold zsf. rewrite Et. apply (ord_step k t Et).
Qed.

Hypothesis Ne : no_empty_phase ph.
Lemma strict : forall j, (j < 2 * m + 1)%nat -> (nth j (ph_shift ph) 0 < nth (S j) (ph_shift ph) 0)%nat.
Proof. intros j Hj. destruct (run_end g g_good left right init dT srt out Gen Ne) as [_ H]. apply H. exact Hj. Qed.
Lemma shift_len : length (ph_shift ph) = (2 * m + 2)%nat.
Proof. destruct (generate_inv _ _ _ _ _ _ _ g_good Gen) as (l0 & r0 & _ & _ & _ & _ & _ & _ & _ & _ & P & _). apply (p_len _ _ _ _ _ _ _ P). Qed.
Lemma shift_hd : bnd ph 0 = 0%nat.
Proof. destruct (generate_inv _ _ _ _ _ _ _ g_good Gen) as (l0 & r0 & _ & _ & _ & _ & _ & _ & _ & _ & P & _). apply (p_hd _ _ _ _ _ _ _ P). Qed.
Lemma shift_last : last (ph_shift ph) 0%nat = bnd ph (2 * m + 1).
Proof.
  unfold bnd. pose proof shift_len as L. rewrite (app_removelast_last 0%nat) at 2 by (intros C; rewrite C in L; cbn in L; lia).
  assert (Lr : length (removelast (ph_shift ph)) = (2 * m + 1)%nat).
  { rewrite (app_removelast_last 0%nat) in L by (intros C; rewrite C in L; cbn in L; lia). rewrite app_length in L. cbn in L. lia. }
  rewrite <- Lr. rewrite app_nth2, Nat.sub_diag by lia. reflexivity.
Qed.
Lemma left_len : length (ph_left ph) = bnd ph (2 * m + 1).
Proof. destruct (generate_inv _ _ _ _ _ _ _ g_good Gen) as (l0 & r0 & _ & _ & _ & _ & _ & _ & _ & _ & P & _). exact (p_size _ _ _ _ _ _ _ P true). Qed.
Lemma mono : forall i j, (i <= j <= 2 * m + 1)%nat -> (bnd ph i <= bnd ph j)%nat.
Proof. destruct (generate_inv _ _ _ _ _ _ _ g_good Gen) as (l0 & r0 & _ & _ & _ & _ & _ & _ & _ & _ & P & _). exact (p_mono _ _ _ _ _ _ _ P). Qed.
Lemma dT_pos : 0 < dT.
Proof. destruct (generate_inv _ _ _ _ _ _ _ g_good Gen) as (l0 & r0 & _ & _ & Hd & _). exact Hd. Qed.

Hypothesis Ho : 0 < dc_om c.
Hypothesis Hs : 0 <= dc_still c < 1.
Variables p0 v0 : vec2.

Definition fine (dTm : R) (tr : list sub) : Prop :=
  tiles 0 E tr /\ Forall finite (lasting tr) /\ Forall (fun s => sub_om s = dc_om c) (lasting tr) /\ chain (lasting tr)
  /\ (exists s r, tr = s :: r /\ sub_t0 s < sub_t1 s /\ sub_pos s 0 = Some p0 /\ sub_vel s 0 = Some v0)
  /\ (exists e, at_time tr E = Some e /\ sub_pos e E = Some (mid (zsf (m + 1)) (zsf m)) /\ sub_vel e E = Some vzero)
  /\ ((g_pause g = true -> dT <= g_endSwitch g /\ dT <= g_switchPct g * g_nomStep g /\ g_endSwitch g + g_switchPct g * g_nomStep g + dT <= g_switchPct g * g_maxStep g) ->
      dT <= (1 - dc_still c) * (INR (bnd ph (2 * m + 1) - bnd ph (2 * m)) * dT) -> Forall (fun s => dT <= sub_t1 s - sub_t0 s) (removelast tr)).

Lemma z_pos : z_pause Z = true -> 0 < z_end Z /\ 0 < z_nom Z.
Proof. intros _. destruct g_good as [G1 G2 G3 _]. cbn. split; [lra|apply Rmult_lt_0_compat; lra]. Qed.

Lemma build_run : exists tr, build c Z dT steps (ph_shift ph) (ph_left ph) p0 v0 = Ok tr /\ fine dT tr
  /\ ((1 <= m)%nat -> Whole c Z dT steps (ph_shift ph) m zsf p0 v0 (ph_left ph) tr).
Proof.
  pose proof dT_pos as Hd. pose proof shift_len as Ls. assert (Lo : length steps = (m + 2)%nat) by (unfold steps; rewrite map_length; apply ord_length).
  pose proof strict as St. pose proof left_len as Ll. pose proof shift_hd as Sh.
  assert (El : ph_left ph <> []). { intros C. rewrite C in Ll. cbn [length] in Ll. pose proof (St 0%nat ltac:(lia)) as Q. pose proof (mono 1 (2 * m + 1) ltac:(lia)) as Q'. unfold bnd in *. lia. }
  destruct (Nat.eq_dec m 0) as [Em|Em].
  - assert (E0 : E = INR (bnd ph 1) * dT) by (unfold E; rewrite Em; reflexivity).
    assert (Ep : 0 < E). { rewrite E0. apply Rmult_lt_0_compat; auto. apply lt_0_INR. pose proof (St 0%nat ltac:(lia)) as Q. unfold bnd in *. lia. }
    rewrite Em in *. cbn [Nat.mul Nat.add] in *.
    destruct steps as [|o0 [|o1 [|o2 rest]]] eqn:Es; cbn [length] in Lo; try lia.
    pose proof (steps_zmp 0 o0) as Z0. pose proof (steps_zmp 1 o1) as Z1. rewrite Es in Z0, Z1. specialize (Z0 eq_refl). specialize (Z1 eq_refl).
    unfold build, step_at. cbn [length Nat.ltb Nat.leb nth_error rbind]. rewrite Z0, Z1. cbn [rbind].
    assert (S0 : nth_error (ph_shift ph) 0 = Some 0%nat). { rewrite (nth_error_nth' _ 0%nat) by lia. f_equal. exact Sh. }
    unfold shift_at. rewrite S0. cbn [rbind]. rewrite Ls. unfold sub_size. cbn [Nat.leb Nat.sub rbind].
    assert (S1 : nth_error (ph_shift ph) 1 = Some (bnd ph 1)) by (rewrite (nth_error_nth' _ 0%nat) by lia; reflexivity).
    rewrite S1. cbn [rbind]. rewrite <- E0. change (INR 0) with 0. rewrite Rmult_0_l.
    destruct (mk_3_ok (MkD 0 p0 v0) (MkD E (mid (zsf 0) (zsf 1)) vzero) (dc_om c)) as (x & Ex & A0 & A1); cbn [d_t] in *; [lra..|].
    rewrite Ex. cbn [rbind]. eexists. split; [reflexivity|]. split; [|lia].
    destruct (mk_3_bounds _ _ _ _ Ex ltac:(cbn [d_t]; lra)) as (_ & _ & Ox & Fx & P1 & V1 & P2 & V2). cbn [d_t d_p d_v] in *.
    unfold fine. rewrite lasting_cons by lra. cbn [lasting filter]. rewrite Em. cbn [Nat.add].
    split; [cbn; lra|]. split; [repeat constructor; auto|]. split; [repeat constructor; auto|]. split; [exact I|].
    split; [exists x, []; repeat split; auto; lra|]. split; [|intros _ _; constructor].
    exists x. split; [reflexivity|]. split; auto. rewrite P2. f_equal. unfold mid. apply vec2_ext; cbn; ring.
  - destruct (build_walk c Z dT steps (ph_shift ph) m zsf Hd ltac:(lia) Lo Ls St Sh steps_zmp Ho Hs z_pos p0 v0 (ph_left ph) El) as (tr & Et & W).
    exists tr. split; [exact Et|]. split; [|intros _; exact W]. destruct W as [_ _ _ _ WT WF WO WC WS WE _ WL]. unfold fine.
    assert (EE : b dT (ph_shift ph) (2 * m + 1) = E) by reflexivity. rewrite EE in *.
    split; [exact WT|]. split; [exact WF|]. split; [exact WO|]. split; [exact WC|]. split; [exact WS|]. split.
    + destruct WE as (pre & d & f & Etr & D0 & D1 & F0 & F1 & P & V & F).
      assert (Q : b dT (ph_shift ph) (2 * m) < E).
      { unfold E, b. apply Rmult_lt_compat_r; auto. apply lt_INR. pose proof (St (2 * m)%nat ltac:(lia)) as Q. replace (S (2 * m)) with (2 * m + 1)%nat in Q by lia. exact Q. }
      assert (TM : tm c dT (ph_shift ph) m = E - (E - b dT (ph_shift ph) (2 * m)) * dc_still c) by (unfold tm; rewrite EE; ring).
      destruct (Rle_lt_or_eq_dec _ _ (proj1 Hs)) as [Sp|Sz].
      * exists f. split; [|apply F; auto]. eapply at_time_inside; [exact WT|rewrite Etr; apply in_or_app; right; right; left; auto|]. rewrite F0, F1.
        split; [|lra]. assert (0 < (E - b dT (ph_shift ph) (2 * m)) * dc_still c) by (apply Rmult_lt_0_compat; lra). lra.
      * rewrite <- Sz, Rmult_0_r, Rminus_0_r in TM. rewrite TM in *.
        exists d. split; [|auto]. eapply at_time_inside; [exact WT|rewrite Etr; apply in_or_app; right; left; auto|]. rewrite D0, D1. lra.
    + intros H1 H2. apply WL. split; [exact H1|]. rewrite minus_INR in H2 by (apply mono; lia). eapply Rle_trans; [exact H2|]. apply Req_le. unfold b, bnd. ring.
Qed.

(** ** Evaluation and weights *)
Variables l0 r0 : step.
Hypothesis Hl0 : hd_error (fp_steps left) = Some l0.
Hypothesis Hr0 : hd_error (fp_steps right) = Some r0.

Lemma mine_all : forall b' f, hd_error (foot_list (fp_steps left) (fp_steps right) b') = Some f -> foot_list (fp_steps left) (fp_steps right) b' = f :: mine b' pl ++ [].
Proof.
  intros b' f Hf. destruct (C36_swings_match_steps ops left right init dT srt out Srt Gen) as (_ & Hst & Hil & Hir & _). fold pl in Hst, Hil, Hir.
  destruct (foot_list (fp_steps left) (fp_steps right) b') as [|s0 rest] eqn:Efl; [discriminate|]. cbn in Hf. injection Hf as ->. f_equal. rewrite app_nil_r. symmetry.
  rewrite (mine_steps b' pl (f :: rest)) with (n := 1%nat) (m := (length rest)); [reflexivity| |destruct b'; cbn [foot_list] in Efl|reflexivity].
  - intros t Ht Eb. apply In_nth_error in Ht. destruct Ht as [k Hk]. destruct (Hst k t Hk) as [H _]. rewrite Eb, Efl in H. exact H.
  - rewrite Hil, Efl. cbn. f_equal. lia.
  - rewrite Hir, Efl. cbn. f_equal. lia.
Qed.

Lemma weights_run : forall ys, length ys = length (ph_left ph) ->
  exists ws, weight_loop c (ph_left ph) ys (tl (ph_shift ph)) 0 (fp_steps left) (fp_steps right) = Ok ws /\ length ws = length (ph_left ph)
  /\ forall i, (i < length (ph_left ph))%nat -> exists sL sR w, stands_on l0 pl ph true i sL /\ stands_on r0 pl ph false i sR /\ nth_error ws i = Some w
     /\ (nth_error (ph_left ph) i = Some Stance -> w = (1, 0)) /\ (nth_error (ph_left ph) i = Some Swing -> w = (0, 1))
     /\ (nth_error (ph_left ph) i = Some SwitchIn \/ nth_error (ph_left ph) i = Some SwitchOut -> w = wt c ys sL sR i).
Proof.
  intros ys Ly. destruct (generate_inv _ _ _ _ _ _ _ g_good Gen) as (l0' & r0' & _ & _ & _ & _ & _ & _ & _ & _ & P & _). fold ph pl in P. pose proof P as P0. destruct P.
  fold m in p_len, p_mono, p_size, p_end.
  exists (shares (bnd ph) (wt c ys) 0 l0 r0 pl).
  assert (En : m = (0 + length pl)%nat) by reflexivity.
  split; [|split].
  - pose proof (mine_all true l0 Hl0) as M1. pose proof (mine_all false r0 Hr0) as M2. cbn [foot_list] in M1, M2. rewrite M1, M2.
    assert (Esh : tl (ph_shift ph) = map (bnd ph) (seq (2 * 0 + 1) (2 * length pl + 1))).
    { rewrite (shift_map (ph_shift ph)), p_len. fold m. replace (2 * m + 2)%nat with (S (2 * m + 1)) by lia. cbn [seq map tl]. reflexivity. }
    rewrite Esh. pose proof (loop_shares c (bnd ph) (ph_left ph) ys pl 0 l0 r0 m [] [] En) as L. replace (bnd ph (2 * 0)) with 0%nat in L by (symmetry; exact p_hd).
    apply L; clear L.
    + intros i Hi. apply strict. lia.
    + rewrite Ly, left_len. lia.
    + intros j t Hj. cbn [Nat.add]. destruct (p_win j t Hj) as (W1 & W2 & W3 & W4). destruct (t_left t); cbn [foot_phases negb] in *; auto.
    + destruct p_end as [E1 E2]. destruct (last_mover _ _ _); cbn [foot_phases negb] in *; [exists SwitchIn|exists SwitchOut]; auto.
  - rewrite (shares_length (bnd ph) (wt c ys) pl 0 l0 r0 m En p_mono). change (2 * 0)%nat with 0%nat. rewrite p_hd, left_len. lia.
  - intros i Hi. rewrite left_len in Hi.
    destruct (shares_at (bnd ph) (wt c ys) pl 0 l0 r0 m i En p_mono) as (sL & sR & w & S1 & S2 & W & K). { change (2 * 0)%nat with 0%nat. rewrite p_hd. lia. }
    change (2 * 0)%nat with 0%nat in W. rewrite p_hd, Nat.sub_0_r in W. exists sL, sR, w. split; [exact S1|]. split; [exact S2|]. split; [exact W|].
    destruct K as [(j & t & J1 & J2 & J3)|(N & J)].
    + cbn [Nat.add] in J2. destruct (p_win j t J1) as (_ & _ & W3 & W4). subst w.
      destruct (t_left t); cbn [foot_phases negb] in *.
      * specialize (W3 i J2). rewrite W3. repeat split; intros; auto; try discriminate. destruct H; discriminate.
      * specialize (W4 i J2). rewrite W4. repeat split; intros; auto; try discriminate. destruct H; discriminate.
    + destruct (instant_cases g g_good left right init dT srt out Gen i ltac:(fold ph; rewrite left_len; exact Hi)) as (j & p & q & Hj & Hb & C & Q1 & Q2 & _). fold ph in Hb, Q1, Q2.
      assert (Np : p <> Swing /\ p <> Stance).
      { destruct (parity j) as (k & [-> | ->]).
        - destruct (nth_error pl k) as [t|] eqn:Et.
          + destruct (p_win k t Et) as (W1 & W2 & _). replace (S (2 * k)) with (2 * k + 1)%nat in Hb by lia.
            specialize (Q1 i ltac:(replace (S (2 * k)) with (2 * k + 1)%nat by lia; lia)). destruct (t_left t); cbn [foot_phases negb] in *; [rewrite (W1 i Hb) in Q1|rewrite (W2 i Hb) in Q1]; injection Q1 as <-; split; discriminate.
          + apply nth_error_None in Et. fold m in Et, Hj. fold pl m in Hj. assert (k = m) by lia. subst k. destruct p_end as [E1 E2]. replace (S (2 * m)) with (2 * m + 1)%nat in Hb by lia.
            specialize (Q1 i ltac:(replace (S (2 * m)) with (2 * m + 1)%nat by lia; lia)). destruct (last_mover _ _ _); cbn [foot_phases negb] in *; [rewrite (E1 i Hb) in Q1|rewrite (E2 i Hb) in Q1]; injection Q1 as <-; split; discriminate.
        - exfalso. fold pl m in Hj. destruct (nth_error pl k) as [t|] eqn:Et; [|apply nth_error_None in Et; fold m in Et; lia]. apply (N k t Et). cbn [Nat.add]. replace (S (2 * k + 1)) with (2 * k + 2)%nat in Hb by lia. exact Hb. }
      specialize (Q1 i Hb). rewrite Q1. repeat split; intros Q; [injection Q as ->; destruct Np; congruence|injection Q as ->; destruct Np; congruence|exact J].
Qed.

Hypothesis Hp0 : start_state c l0 r0 = (p0, v0).
Lemma compute_run :
  (g_pause g = true -> dT <= g_endSwitch g /\ dT <= g_switchPct g * g_nomStep g /\ g_endSwitch g + g_switchPct g * g_nomStep g + dT <= g_switchPct g * g_maxStep g) ->
  dT <= (1 - dc_still c) * (INR (bnd ph (2 * m + 1) - bnd ph (2 * m)) * dT) ->
  exists o, dcm_compute c Z init dT left right steps ph = Ok (o, MkDC (dc_om c) (dc_alpha c) (dc_still c) (dc_last c) (dc_five c) (dc_offL c) (dc_offR c) None)
  /\ build c Z dT steps (ph_shift ph) (ph_left ph) p0 v0 = Ok (do_subs o)
  /\ length (do_samples o) = length (ph_left ph)
  /\ (forall i y, nth_error (do_samples o) i = Some y -> exists x, at_time (do_subs o) (INR i * dT) = Some x /\ y = sample_of x (INR i * dT))
  /\ weight_loop c (ph_left ph) (do_samples o) (tl (ph_shift ph)) 0 (fp_steps left) (fp_steps right) = Ok (do_weights o).
Proof.
  intros H1 H2. pose proof dT_pos as Hd. destruct build_run as (tr & Et & F & _). destruct F as (FT & FF & FO & FC & FS & FE & FL). specialize (FL H1 H2).
  destruct FS as (s & r & -> & Ls & P & V).
  pose proof FT as (T0 & T1 & T2).
  destruct (eval_ok dT E (bnd ph (2 * m + 1)) 0 s r Hd) as (ys & Y1 & Y2 & Y3).
  { rewrite T0. exact FT. } { exact FL. } { rewrite T0. cbn. lra. } { cbn. lra. }
  { intros j Hj. unfold E. apply Rmult_le_compat_r; [lra|]. apply le_INR. lia. }
  destruct (weights_run ys ltac:(rewrite left_len; exact Y2)) as (ws & W & _).
  exists (MkDO (s :: r) ys ws). cbn [do_subs do_samples do_weights].
  split; [|split; [exact Et|]; split; [rewrite left_len; exact Y2|]; split; [exact Y3|exact W]].
  assert (Ini : (match dc_init c with Some x => Ok x | None => match fp_steps left, fp_steps right with
     | l0 :: _, r0 :: _ => Ok (mid (vadd (st_pos l0) (dc_offL c)) (vadd (st_pos r0) (dc_offR c)), vzero) | _, _ => UB end end) = Ok (p0, v0)).
  { unfold start_state in Hp0. destruct (dc_init c) as [x|]; [congruence|]. destruct (fp_steps left); [discriminate|]. destruct (fp_steps right); [discriminate|]. cbn in Hl0, Hr0. injection Hl0 as ->. injection Hr0 as ->. congruence. }
  unfold dcm_compute. rewrite Ini. cbn [rbind fst snd].
  destruct (generate_inv _ _ _ _ _ _ _ g_good Gen) as (l0' & r0' & Hl0' & Hr0' & _ & _ & T3 & T4 & _).
  assert (l0' = l0) by congruence. assert (r0' = r0) by congruence. subst l0' r0'.
  assert (Pk : pause_ok Z = true).
  { destruct g_good as [G1 G2 G3 _]. unfold pause_ok. cbn [Z ztimes_of z_max z_nom z_end z_pause].
    assert (0 < g_switchPct g * g_nomStep g) by (apply Rmult_lt_0_compat; lra). assert (0 < g_switchPct g * g_maxStep g) by (apply Rmult_lt_0_compat; lra).
    rewrite (proj2 (Rltb_false _ _)), (proj2 (Rleb_false _ _)), (proj2 (Rltb_false (g_endSwitch g) 0)) by lra. rewrite andb_false_r. reflexivity. }
  rewrite (proj2 (Rleb_false dT 0)) by lra. rewrite Pk. cbn [negb].
  assert (Im : Rltb init (Rmax (st_time l0) (st_time r0)) = false) by (apply Rltb_false; apply Rmax_lub; auto).
  assert (Ev : evaluate dT (ph_shift ph) (s :: r) = Ok ys).
  { unfold evaluate. pose proof shift_len as L. pose proof shift_last as SL. pose proof shift_hd as SH. unfold bnd in SH. destruct (ph_shift ph) as [|a q]; [cbn in L; lia|]. cbn in SH. subst a.
    rewrite SL. unfold sub_size. cbn [Nat.leb rbind]. rewrite Nat.sub_0_r. exact Y1. }
  destruct (fp_steps left) as [|x0 xl] eqn:EL; [discriminate|]. destruct (fp_steps right) as [|x1 xr] eqn:ER; [discriminate|]. cbn in Hl0, Hr0. injection Hl0 as ->. injection Hr0 as ->.
  rewrite Im, Et. cbn [rbind]. rewrite Ev. cbn [rbind]. rewrite W. cbn [rbind]. reflexivity.
Qed.
End Run.
