(** C47-C51, C65, C66: ZMP trajectories. *)
From Coq Require Import String Reals Lra Lia ZArith List Bool Sorting.Sorted Sorting.Permutation Floats Uint63.
From Flocq Require Import Core Relative.
From Verif Require Import Prelude EvalTac Rounding FootPrint GenPhases GenSpec GenProofs GenProofs2 GenProofs3 GenProofs4
  Properties_Generator FeetTraj FeetSpec FeetProofs FeetProofs2 FeetProofs3 EllipseProofs CoMHeightSpec CoMHeightProofs
  ZMP ZMPSpec ZMPProofs ZMPProofs2 ZMPProofs3 ZMPProofs4 ZMPProofs5 ZMPFloat.
Import ListNotations.
Open Scope R_scope.

(** The call that src/UnicycleGenerator.cpp:431-435 makes after the phases have been computed. *)
Definition zmp_of (spl : R -> R -> R -> R -> R -> R -> pva) (c : zcfg) (g : gset) (init dT : R) (left right : footprint) (out : genout) :=
  zmp_compute spl c (ztimes_of g) init dT left right (map t_step (go_ord out)) (go_ph out).
(** Configuration reached by any history of calls. *)
Definition z_after (ops : list zop) : zcfg := fold_left z_call ops z_new.

(** C47. *)
Theorem C47_complementary_shares : forall ops zops left right init dT srt out spl zo c',
  generate_phases (settings_after ops) left right init dT srt = Ok out ->
  zmp_of spl (z_after zops) (settings_after ops) init dT left right out = Ok (zo, c') ->
  length (zo_wl zo) = length (ph_left (go_ph out)) /\ length (zo_wr zo) = length (ph_left (go_ph out))
  /\ forall i, (i < length (ph_left (go_ph out)))%nat -> exists a b, nth_error (zo_wl zo) i = Some a /\ nth_error (zo_wr zo) i = Some b
     /\ p_p a + p_p b = 1 /\ p_v a + p_v b = 0 /\ p_a a + p_a b = 0
     /\ (nth_error (ph_left (go_ph out)) i = Some Stance -> a = MkPva 1 0 0 /\ p_p b = 0 /\ p_v b = 0 /\ p_a b = 0)
     /\ (nth_error (ph_right (go_ph out)) i = Some Stance -> a = MkPva 0 0 0 /\ p_p b = 1 /\ p_v b = 0 /\ p_a b = 0)
     /\ (spline_contract spl -> (forall w, z_init (z_after zops) = Some w -> 0 <= p_p w <= 1 /\ p_v w = 0) ->
         0 <= p_p a <= 1 /\ 0 <= p_p b <= 1).
Proof.
  intros ops zops left right init dT srt out spl zo c' Hg Hz. pose proof (good_history ops) as G. fold (settings_after ops) in G.
  destruct (run_values spl _ G _ _ _ _ _ _ Hg _ _ _ Hz) as (Hd & L1 & _ & _ & K).
  destruct (zmp_parts _ _ _ _ _ _ _ _ _ _ _ Hz) as (oldL & oldR & s1 & _ & _ & Ew & _).
  split; auto. split; [rewrite Ew, map_length; auto|]. intros i Hi. destruct (K i Hi) as (j & p & q & Hj & Hb & C & Pp & Pq & _ & Hn2 & Ea & _).
  set (a := wval _ _ _ _ _ _ _ _ _) in Ea. exists a, (mirror a). split; auto. split; [rewrite Ew, nth_error_map, Ea; reflexivity|].
  unfold mirror. cbn [p_p p_v p_a]. split; [ring|]. split; [ring|]. split; [ring|].
  split; [intros Q; assert (p = Stance) by congruence; subst p; unfold a; cbn; repeat split; ring|].
  split.
  - intros Q. assert (q = Stance) by congruence. subst q. assert (p = Swing) by (destruct C as [[-> ?]|[[-> ?]|[[-> ?]|[-> ?]]]]; congruence). subst p. unfold a. cbn. repeat split; ring.
  - intros Hs Hw. assert (R0 : 0 <= p_p a <= 1); [|lra]. unfold a.
    assert (W : p_v (init_weight (z_after zops)) = 0 /\ 0 <= p_p (init_weight (z_after zops)) <= 1).
    { unfold init_weight. destruct (z_init (z_after zops)) as [w|]; [destruct (Hw w eq_refl); auto|cbn; lra]. }
    apply wval_range; auto; try (apply (Zend _ G)); try (apply (Znom _ G)); try tauto. lia.
Qed.
Print Assumptions C47_complementary_shares.

(** The theorems about successful runs are met by a step of the right foot, with any initial share. *)
Lemma step_named : named stepL /\ named stepR.
Proof. split; intros s; cbn; intuition (subst; reflexivity). Qed.
Lemma step_timed : strictly_timed (fp_steps stepL) /\ strictly_timed (fp_steps stepR).
Proof. split; repeat constructor; cbn; lra. Qed.
Lemma step_zmp : forall spl c, exists out zo, generate_phases (settings_after []) stepL stepR 0 1 stepSrt = Ok out
  /\ go_ord out = stepOrd /\ ph_shift (go_ph out) = [0%nat; 2%nat; 4%nat; 5%nat]
  /\ ph_left (go_ph out) = [SwitchIn; SwitchIn; Stance; Stance; SwitchOut]
  /\ zmp_of spl c (settings_after []) 0 1 stepL stepR out = Ok (zo, MkZ (z_stL c) (z_stR c) (z_swL c) (z_swR c) None None).
Proof.
  intros spl c. destruct step_run as (out & H & Ho & Hs & Hr & Hl). destruct step_named as [N1 N2].
  destruct (run_total spl gset_new (good_history []) stepL stepR 0 1 stepSrt out H step_sort N1 N2 c) as (zo & Hz).
  - apply step_no_empty; auto.
  - intros _. unfold n2, ztimes_of, gset_new. cbn [z_nom g_switchPct g_nomStep]. apply FeetProofs2.nround_pos. lra.
  - exists out, zo. repeat (split; [assumption|]). exact Hz.
Qed.
Example C47_example : spline_contract tbs
  /\ (forall w, z_init (z_after [ZInit (MkPva (1/4) 0 0); ZStance (V2 (1/50) 0) (V2 (1/50) 0)]) = Some w -> 0 <= p_p w <= 1 /\ p_v w = 0)
  /\ exists out zo c', generate_phases (settings_after []) stepL stepR 0 1 stepSrt = Ok out
     /\ zmp_of tbs (z_after [ZInit (MkPva (1/4) 0 0); ZStance (V2 (1/50) 0) (V2 (1/50) 0)]) (settings_after []) 0 1 stepL stepR out = Ok (zo, c')
     /\ nth_error (ph_left (go_ph out)) 2 = Some Stance.
Proof.
  split; [exact tbs_contract|]. split; [cbn; intros w E; injection E as <-; cbn; lra|].
  destruct (step_zmp tbs (z_after [ZInit (MkPva (1/4) 0 0); ZStance (V2 (1/50) 0) (V2 (1/50) 0)])) as (out & zo & H & _ & _ & Hl & Hz).
  exists out, zo. eexists. split; [exact H|]. split; [exact Hz|]. rewrite Hl. reflexivity.
Qed.

(** C48: when the steps carry the present names of their foot prints, the computation is defined and succeeds exactly
    when every phase has a sample and a pausing switch has room for the nominal one, and at every instant the steps used
    are the latest ones of each foot.
    Missing for the full C48: foot prints renamed after steps were added, see [C48_renamed_refuted]. *)
Theorem C48_lookup_partial : forall ops zops left right init dT srt out spl,
  sort_result (fp_steps left) (fp_steps right) srt -> named left -> named right ->
  let g := settings_after ops in let ph := go_ph out in
  generate_phases g left right init dT srt = Ok out ->
  (no_empty_phase ph -> (g_pause g = true -> dT <= 2 * (g_switchPct g * g_nomStep g)) ->
   exists zo c', zmp_of spl (z_after zops) g init dT left right out = Ok (zo, c'))
  /\ forall zo c', zmp_of spl (z_after zops) g init dT left right out = Ok (zo, c') ->
     no_empty_phase ph /\ length (zo_world zo) = length (ph_left ph)
     /\ exists oldL oldR, old_steps (z_after zops) left right oldL oldR
     /\ forall i w, nth_error (zo_world zo) i = Some w -> exists sL sR a b x y,
          latest (fp_steps left) (init + INR i * dT) sL /\ latest (fp_steps right) (init + INR i * dT) sR
          /\ nth_error (zo_wl zo) i = Some a /\ nth_error (zo_wr zo) i = Some b
          /\ nth_error (zo_zl zo) i = Some x /\ nth_error (zo_zr zo) i = Some y
          /\ w = world_sample (Nat.ltb i (bnd ph 1)) (correction spl dT (bnd ph 1) i) oldL oldR sL sR a b x y.
Proof.
  intros ops zops left right init dT srt out spl Hs NL NR g ph Hg. pose proof (good_history ops) as G. fold (settings_after ops) in G. fold g in G.
  destruct (generate_inv _ _ _ _ _ _ _ G Hg) as (_ & _ & _ & _ & Hd & _). split.
  - intros Hne Hp. destruct (run_total spl g G left right init dT srt out Hg Hs NL NR (z_after zops) Hne) as (zo & Hz); [|eauto].
    intros Ep. unfold n2. apply FeetProofs2.nround_pos. apply (Rmult_le_reg_r dT); auto. cbn [ztimes_of z_nom]. specialize (Hp Ep). field_simplify; lra.
  - intros zo c' Hz. split; [eapply (run_no_empty spl g G); eauto|]. destruct (run_world spl g G left right init dT srt out Hg Hs NL NR _ _ _ Hz) as (oL & oR & Ho & L & K).
    split; auto. exists oL, oR. auto.
Qed.
Print Assumptions C48_lookup_partial.

(** C48: when do the steps carry the name of the foot print: always, unless it is renamed while it has steps. *)
Theorem C48_names : forall ops, (forall pre n post, ops = pre ++ OpSetName n :: post -> fp_steps (fp_history pre) = []) -> named (fp_history ops).
Proof.
  intros ops. induction ops as [|o ops IH] using rev_ind; intros H; [intros s []|].
  assert (IH' : named (fp_history ops)). { apply IH. intros pre n post E. apply (H pre n (post ++ [o])). rewrite E, <- app_assoc. reflexivity. }
  unfold fp_history in *. rewrite fold_left_app. cbn [fold_left]. set (f := fold_left fp_run ops fp_new) in *. destruct o; cbn [fp_run].
  - unfold fp_addStep. destruct (Rltb t 0); auto. intros s Hs. cbn in *. apply in_app_or in Hs. destruct Hs as [Hs|[<-|[]]]; auto.
  - unfold fp_dropPast. destruct (Nat.ltb _ _); auto. intros s Hs. cbn in *. apply IH'. revert Hs. generalize (fp_number f - 1)%nat. clear.
    intros n Hs. rewrite <- (firstn_skipn n (fp_steps f)). apply in_or_app. auto.
  - unfold fp_keepPresent. destruct (find _ _) as [d|]; auto. unfold fp_addStep. destruct (Rltb _ 0); cbn; intros s Hs; [destruct Hs|].
    destruct Hs as [<-|[]]. reflexivity.
  - intros s [].
  - unfold fp_clearLast. destruct (Nat.eqb _ _); auto. intros s Hs. cbn in *. apply IH'. revert Hs. generalize (fp_steps f). clear.
    induction l as [|a l IH]; cbn; auto. destruct l; [intros []|]. intros [->|H]; auto.
  - intros s Hs. pose proof (H ops n [] eq_refl) as E0. fold f in E0. cbn in Hs. rewrite E0 in Hs. destruct Hs.
Qed.
Print Assumptions C48_names.

Example C48_example : named stepL /\ named stepR /\ sort_result (fp_steps stepL) (fp_steps stepR) stepSrt
  /\ exists out, generate_phases (settings_after []) stepL stepR 0 1 stepSrt = Ok out /\ no_empty_phase (go_ph out)
  /\ 1 <= 2 * (g_switchPct (settings_after []) * g_nomStep (settings_after [])).
Proof.
  destruct step_named. split; auto. split; auto. split; [exact step_sort|]. destruct step_run as (out & H1 & Ho & Hs & _). exists out.
  split; auto. split; [apply step_no_empty; auto|]. cbn. lra.
Qed.
Example C48_names_example : let ops := [OpSetName "l"; OpAdd (V2 0 1) 0 0; OpAdd (V2 1 1) 0 2; OpDropPast] in
  (forall pre n post, ops = pre ++ OpSetName n :: post -> fp_steps (fp_history pre) = []) /\ fp_name (fp_history ops) = "l"%string.
Proof.
  split.
  - intros pre n post E. destruct pre as [|x pre]; [reflexivity|]. cbn in E. injection E as _ E. exfalso.
    repeat (destruct pre as [|? pre]; cbn in E; [discriminate|injection E as _ E]). destruct pre; discriminate.
  - unfold fp_history. cbn -[fp_run]. cbn [fp_run fst fp_setName fp_new fp_steps]. unfold fp_addStep. rewrite rltb_f by lra. cbn. rewrite rltb_f by lra. reflexivity.
Qed.

(** C48, finding: foot prints renamed after their steps were stored are accepted by the generator, and then the search
    runs below the first step. *)
Definition oldL : footprint := fp_history [OpSetName "l"; OpAdd (V2 0 (1/10)) 0 0; OpSetName "left"].
Definition oldR : footprint := fp_history [OpSetName "r"; OpAdd (V2 0 (-1/10)) 0 0; OpSetName "right"].
Definition oldSrt : list tstep := [MkT true 0 (MkStep (V2 0 (1/10)) 0 0 "l"); MkT false 0 (MkStep (V2 0 (-1/10)) 0 0 "r")].
Lemma old_steps_eq : oldL = MkFP [MkStep (V2 0 (1/10)) 0 0 "l"] "left" /\ oldR = MkFP [MkStep (V2 0 (-1/10)) 0 0 "r"] "right".
Proof. unfold oldL, oldR, fp_history. cbn. unfold fp_addStep. rewrite rltb_f by lra. split; reflexivity. Qed.
Theorem C48_renamed_refuted : exists opsL opsR srt out,
  let left := fp_history opsL in let right := fp_history opsR in
  sort_result (fp_steps left) (fp_steps right) srt
  /\ generate_phases (settings_after []) left right 0 1 srt = Ok out /\ no_empty_phase (go_ph out)
  /\ forall spl zops, zmp_of spl (z_after zops) (settings_after []) 0 1 left right out = UB.
Proof.
  exists [OpSetName "l"; OpAdd (V2 0 (1/10)) 0 0; OpSetName "left"], [OpSetName "r"; OpAdd (V2 0 (-1/10)) 0 0; OpSetName "right"], oldSrt.
  destruct old_steps_eq as [EL ER]. unfold oldL in EL. unfold oldR in ER.
  exists (MkGO oldSrt (MkPh [SwitchOut] [SwitchIn] [0%nat; 1%nat] [0%nat] false) [true] [true] [true]). cbv zeta. rewrite EL, ER.
  split; [split; [apply Permutation_refl|repeat constructor; unfold tle; cbn; lra]|]. split.
  { unfold generate_phases. cbn -[Rltb Rleb Rmax order_steps create_phases Reqb]. rewrite (rleb_f 1 0) by lra.
    rewrite (rltb_f 0 (Rmax 0 0)) by (unfold Rmax; destruct (Rle_dec 0 0); lra).
    assert (Eo : order_steps oldSrt = Ok oldSrt) by reflexivity.
    rewrite Eo. cbn [rbind]. unfold create_phases, oldSrt. cbn [settings_after fold_left gset_new g_endSwitch].
    rewrite (size_round_imp (1 / 1) 1) by (simpl; lra). cbn [rbind]. rewrite (rgtb_f 0 0) by lra. reflexivity. }
  split.
  { intros i a b Ha Hb. cbn in *. destruct i as [|[|i]]; cbn in *; try discriminate; try (destruct i; discriminate). injection Ha as <-; injection Hb as <-; lia. }
  intros spl zops. unfold zmp_of, zmp_compute. cbn [fp_steps go_ord go_ph ph_left ph_right ph_shift ph_merge].
  destruct (match z_prev (z_after zops) with Some o => o | None => _ end) as [a b].
  assert (W : forall w0, exists x, foot_weight spl (ztimes_of (settings_after [])) 1 [SwitchOut] w0 [0%nat; 1%nat] = Ok [x]).
  { intros w0. unfold foot_weight. cbn [tl phase_loop nth_error weight_piece rbind sub_size Nat.leb Nat.sub].
    unfold pauses, ztimes_of. cbn [settings_after fold_left gset_new z_pause z_max z_end z_nom g_endSwitch g_switchPct g_nomStep g_maxStep g_pause INR].
    rewrite rgtb_f by (unfold Rmax; destruct (Rle_dec _ _); lra). cbn [andb rbind length sub_size Nat.leb Nat.sub]. unfold spline_pts. rewrite reqb_f by (cbn; lra).
    cbn. eexists. reflexivity. }
  destruct (W (match z_init (z_after zops) with Some w => w | None => still (1 / 2) end)) as (x & ->). cbn [rbind]. unfold init_states.
  cbn [record_states nth_error repeat length Nat.eqb Nat.ltb Nat.leb Nat.sub upd rbind].
  unfold local_zmp. cbn [tl phase_loop nth_error local_piece rbind sub_size Nat.leb Nat.sub Nat.add length repeat Nat.ltb app].
  unfold global_zmp, oldSrt. reflexivity.
Qed.
Print Assumptions C48_renamed_refuted.

(** C49, for foot prints whose steps carry their present names (see C48).
    Missing for the full C49: renamed foot prints, see [C49_renamed_refuted]. *)
Lemma corr_range : forall spl dT s1 i, spline_contract spl -> 0 < dT -> 0 <= p_p (correction spl dT s1 i) <= 1.
Proof.
  intros spl dT s1 i Hs Hd. unfold correction. destruct (Nat.ltb_spec i s1); [|cbn; lra].
  assert (HT : 0 < INR s1 * dT) by (apply n_time; auto; lia).
  assert (A : amid 1 0 (p_p (spl (INR s1 * dT) 1 0 0 0 (INR i * dT)))).
  { eapply hermite_amid; [exact HT|apply Hs; auto|]. split; [apply Rmult_le_pos; [apply pos_INR|lra]|apply k_time; auto; lia]. }
  eapply amid_range; [exact A|lra|lra].
Qed.
Lemma tf_world : forall s p, tf s p = world_of s p.
Proof. intros s [x y]. unfold tf, world_of, rot. apply vec2_ext; cbn; ring. Qed.
Theorem C49_between_the_feet_partial : forall ops zops left right init dT srt out spl zo c',
  let g := settings_after ops in let c := z_after zops in let ph := go_ph out in
  spline_contract spl -> sort_result (fp_steps left) (fp_steps right) srt -> named left -> named right ->
  (forall w, z_init c = Some w -> 0 <= p_p w <= 1 /\ p_v w = 0) ->
  generate_phases g left right init dT srt = Ok out ->
  zmp_of spl c g init dT left right out = Ok (zo, c') ->
  length (zo_world zo) = length (ph_left ph) /\
  exists oldL oldR, old_steps c left right oldL oldR /\
  forall i w, nth_error (zo_world zo) i = Some w -> exists sL sR zl zr PL PR a,
    latest (fp_steps left) (init + INR i * dT) sL /\ latest (fp_steps right) (init + INR i * dT) sR
    /\ on_segment (z_stL c) (z_swL c) zl /\ on_segment (z_stR c) (z_swR c) zr
    /\ on_segment (world_of oldL zl) (world_of sL zl) PL /\ on_segment (world_of oldR zr) (world_of sR zr) PR
    /\ ((bnd ph 1 <= i)%nat -> PL = world_of sL zl /\ PR = world_of sR zr)
    /\ nth_error (zo_wl zo) i = Some a /\ w_p w = vadd (vscale (p_p a) PL) (vscale (1 - p_p a) PR)
    /\ on_segment PL PR (w_p w)
    /\ (nth_error (ph_left ph) i = Some Stance -> w_p w = world_of sL zl)
    /\ (nth_error (ph_right ph) i = Some Stance -> w_p w = world_of sR zr).
Proof.
  intros ops zops left right init dT srt out spl zo c' g c ph Hspl Hs NL NR Hw Hg Hz.
  pose proof (good_history ops) as G. fold (settings_after ops) in G. fold g in G.
  pose proof (C47_complementary_shares ops zops left right init dT srt out spl zo c' Hg Hz) as (_ & _ & Sh).
  destruct (run_values spl g G left right init dT srt out Hg c zo c' Hz) as (Hd & L1 & L2 & L3 & K).
  destruct (run_world spl g G left right init dT srt out Hg Hs NL NR c zo c' Hz) as (oldL & oldR & Ho & LW & KW).
  pose proof (run_no_empty spl g G left right init dT srt out Hg c zo c' Hz) as Hne. fold ph in Hne, K, KW, LW, Sh.
  split; auto. exists oldL, oldR. split; auto. intros i w Hi.
  assert (Hi' : (i < length (ph_left ph))%nat) by (rewrite <- LW; apply nth_error_Some; congruence).
  destruct (KW i w Hi) as (sL & sR & a & b & x & y & T1 & T2 & E3 & E4 & E5 & E6 & ->).
  destruct (K i Hi') as (j & p & q & Hj & Hb & C & Pp & Pq & Pj & _ & _ & El & Er). rewrite E5 in El. rewrite E6 in Er. injection El as ->. injection Er as ->.
  destruct (Sh i Hi') as (a' & b' & Ea & Eb & S1 & _ & _ & SL & SR & Rg). rewrite E3 in Ea. injection Ea as <-. rewrite E4 in Eb. injection Eb as <-.
  specialize (Rg Hspl Hw). assert (Eb : p_p b = 1 - p_p a) by lra.
  assert (Zx : on_segment (z_stL c) (z_swL c) (q_p (lval spl (ztimes_of g) dT (z_stL c) (z_swL c) (Nat.eqb j 0) (Nat.eqb (S j) (2 * length (planned (go_ord out)) + 1)) p (bnd ph (S j) - bnd ph j) (i - bnd ph j)))).
  { apply lval_segment; auto; try apply (Zend _ G); try apply (Znom _ G). lia. }
  assert (Zy : on_segment (z_stR c) (z_swR c) (q_p (lval spl (ztimes_of g) dT (z_stR c) (z_swR c) (Nat.eqb j 0) (Nat.eqb (S j) (2 * length (planned (go_ord out)) + 1)) q (bnd ph (S j) - bnd ph j) (i - bnd ph j)))).
  { apply lval_segment; auto; try apply (Zend _ G); try apply (Znom _ G). lia. }
  set (x := lval _ _ _ (z_stL c) _ _ _ _ _ _) in *. set (y := lval _ _ _ (z_stR c) _ _ _ _ _ _) in *.
  set (k := p_p (correction spl dT (bnd ph 1) i)). assert (Rk : 0 <= k <= 1) by (apply corr_range; auto).
  set (PL := vadd (world_of sL (q_p x)) (vscale k (vsub (world_of oldL (q_p x)) (world_of sL (q_p x))))).
  set (PR := vadd (world_of sR (q_p y)) (vscale k (vsub (world_of oldR (q_p y)) (world_of sR (q_p y))))).
  assert (K0 : (bnd ph 1 <= i)%nat -> k = 0). { intros Q. unfold k, correction. destruct (Nat.ltb_spec i (bnd ph 1)); [lia|reflexivity]. }
  assert (Later : (bnd ph 1 <= i)%nat -> PL = world_of sL (q_p x) /\ PR = world_of sR (q_p y)).
  { intros Q. unfold PL, PR. rewrite (K0 Q). split; apply vec2_ext; cbn; ring. }
  assert (W : w_p (world_sample (Nat.ltb i (bnd ph 1)) (correction spl dT (bnd ph 1) i) oldL oldR sL sR a b x y) = vadd (vscale (p_p a) PL) (vscale (1 - p_p a) PR)).
  { unfold world_sample. rewrite !tf_world. destruct (Nat.ltb_spec i (bnd ph 1)) as [Q|Q]; cbn [w_p]; rewrite Eb.
    - reflexivity.
    - destruct (Later Q) as [-> ->]. reflexivity. }
  assert (St : p = Stance \/ q = Stance -> (bnd ph 1 <= i)%nat).
  { intros Q. destruct (Nat.eq_dec j 0) as [->|Nj].
    - exfalso. specialize (Pj eq_refl). destruct C as [[-> ->]|[[-> ->]|[[-> ->]|[-> ->]]]]; destruct Q, Pj; congruence.
    - destruct (generate_inv _ _ _ _ _ _ _ G Hg) as (l0 & r0 & _ & _ & _ & _ & _ & _ & _ & _ & P & _). destruct P. fold ph in p_mono.
      pose proof (p_mono 1%nat j ltac:(lia)). lia. }
  exists sL, sR, (q_p x), (q_p y), PL, PR, a. split; auto. split; auto. split; auto. split; auto.
  split; [exists k; split; auto; unfold PL; apply vec2_ext; cbn; ring|]. split; [exists k; split; auto; unfold PR; apply vec2_ext; cbn; ring|].
  split; auto. split; auto. split; [exact W|]. split; [exists (p_p a); split; [tauto|exact W]|]. split.
  - intros Q. destruct (SL Q) as (-> & _). rewrite W. destruct (Later (St ltac:(left; congruence))) as [-> ->]. cbn [p_p]. apply vec2_ext; cbn; ring.
  - intros Q. destruct (SR Q) as (-> & _). rewrite W. destruct (Later (St ltac:(right; congruence))) as [-> ->]. cbn [p_p]. apply vec2_ext; cbn; ring.
Qed.
Print Assumptions C49_between_the_feet_partial.

(** If the names of the foot prints are exchanged after the steps were added, the names of the steps no longer tell the
    feet apart: the computation succeeds and, while the right foot swings, puts the ZMP where that foot was. *)
Theorem C49_renamed_refuted : exists left right srt out,
  left = fp_history [OpSetName "l"; OpAdd (V2 0 (1/10)) 0 0; OpSetName "r"]
  /\ right = fp_history [OpSetName "r"; OpAdd (V2 0 (-1/10)) 0 0; OpAdd (V2 (2/10) (-1/10)) 0 4; OpSetName "l"]
  /\ sort_result (fp_steps left) (fp_steps right) srt
  /\ generate_phases (settings_after []) left right 0 1 srt = Ok out
  /\ nth_error (ph_left (go_ph out)) 2 = Some Stance /\ nth_error (ph_right (go_ph out)) 2 = Some Swing
  /\ forall spl, spline_contract spl -> exists zo c' w, zmp_of spl (z_after []) (settings_after []) 0 1 left right out = Ok (zo, c')
     /\ nth_error (zo_world zo) 2 = Some w /\ w_p w = V2 0 (-1/10).
Proof.
  set (L := MkFP (fp_steps stepL) "r"). set (Rt := MkFP (fp_steps stepR) "l"). exists L, Rt, stepSrt.
  destruct (step_zmp tbs (z_after [])) as (out & _ & H & Ho & Hs & Hl & _). exists out.
  split. { unfold fp_history. cbn. unfold fp_addStep. rewrite rltb_f by lra. reflexivity. }
  split. { unfold fp_history. cbn. unfold fp_addStep. cbn. rewrite rltb_f by lra. cbn. rewrite rltb_f by lra. reflexivity. }
  split; [exact step_sort|]. split; [exact H|]. split; [rewrite Hl; reflexivity|].
  split. { destruct step_run as (o2 & H2 & _ & _ & Hr & _). change gset_new with (settings_after []) in H2. assert (o2 = out) by congruence. subst. rewrite Hr. reflexivity. }
  intros spl Hc. destruct (step_zmp spl (z_after [])) as (out' & zo & H' & _ & _ & _ & Hz). assert (out' = out) by congruence. subst out'. unfold zmp_of in *.
  destruct (zmp_parts _ _ _ _ _ _ _ _ _ _ _ Hz) as (oldL & oldR & s1 & Old & Hw & Ew & Hzl & Hzr & Hst & Hs1 & Hg & _).
  destruct (run_values spl _ (good_history []) stepL stepR 0 1 stepSrt out H (z_after []) zo _ Hz) as (_ & L1 & L2 & L3 & K).
  specialize (K 2%nat). rewrite Hl in L1, L2, L3, K. cbn [length] in L1, L2, L3, K. specialize (K ltac:(lia)). destruct K as (j & p & q & _ & Hb & _ & Pp & _ & _ & _ & Ea & El & _).
  injection Pp as <-. set (x := lval _ _ _ _ _ _ _ _ _ _) in El.
  assert (Zx : q_p x = vzero).
  { assert (Sg : on_segment vzero vzero (q_p x)). { unfold x. change (z_stL (z_after [])) with vzero. change (z_swL (z_after [])) with vzero. apply lval_segment; auto; [lra|apply (Zend _ (good_history []))|apply (Znom _ (good_history []))|lia]. }
    destruct Sg as (l & _ & E). rewrite E. apply vec2_ext; cbn; ring. }
  cbn [wval] in Ea. clearbody x.
  assert (Gl : exists W, global_zmp spl 0 1 s1 oldL oldR (map t_step (go_ord out)) "r" "l" (zo_wl zo) (zo_wr zo) (zo_zl zo) (zo_zr zo) = Ok W
    /\ exists w, nth_error W 2 = Some w /\ w_p w = V2 0 (-1/10)).
  { assert (s1 = 2%nat) by (rewrite Hs in Hs1; cbn in Hs1; congruence). subst s1. rewrite Ho, Ew. clear - L1 L2 L3 Ea El Zx.
    destruct (zo_wl zo) as [|a0 [|a1 [|a2 [|a3 [|a4 [|]]]]]]; cbn in L1; try lia. destruct (zo_zl zo) as [|x0 [|x1 [|x2 [|x3 [|x4 [|]]]]]]; cbn in L2; try lia. destruct (zo_zr zo) as [|y0 [|y1 [|y2 [|y3 [|y4 [|]]]]]]; cbn in L3; try lia.
    cbn in Ea, El. injection Ea as ->. injection El as ->. cbn [map mirror].
    unfold global_zmp, stepOrd. cbn [map t_step length sub_size Nat.leb Nat.sub rbind last_named nth_error st_name String.eqb Ascii.eqb Bool.eqb].
    cbn [global_loop]. unfold seek, seek_back. cbn [nth_error st_time st_name String.eqb Ascii.eqb Bool.eqb negb orb].
    repeat first [rewrite rgtb_f by (cbn [INR]; lra)|rewrite rgtb_t by (cbn [INR]; lra)|progress cbn [rbind nth_error st_time st_name String.eqb Ascii.eqb Bool.eqb negb orb]].
    eexists. split; [reflexivity|]. cbn [nth_error]. eexists. split; [reflexivity|].
    unfold world_sample. cbn [Nat.ltb Nat.leb w_p]. rewrite !tf_world, Zx. unfold mirror. cbn. apply vec2_ext; cbn; rewrite ?cos_0, ?sin_0; field. }
  destruct Gl as (W & HW & w & Hw2 & Pw). exists (MkZO (zo_wl zo) (zo_wr zo) (zo_zl zo) (zo_zr zo) W (zo_states zo)). do 2 eexists. split; [|split; [exact Hw2|exact Pw]].
  destruct Old as [O1 O2]. cbn in O1, O2. injection O1 as O1. injection O2 as O2.
  unfold zmp_compute. fold (init_weight (z_after [])). cbn [L Rt fp_steps stepL stepR fp_name z_after fold_left z_new z_prev].
  change z_new with (z_after []). rewrite O1, O2, Hw. cbn [rbind]. rewrite Hst. cbn [rbind]. rewrite Hzl. cbn [rbind]. rewrite Hzr. cbn [rbind]. rewrite Hs1, <- Ew, HW. cbn [rbind]. reflexivity.
Qed.
Print Assumptions C49_renamed_refuted.

(** Hypotheses of C49 met. *)
Example C49_example : spline_contract tbs /\ named stepL /\ named stepR /\ sort_result (fp_steps stepL) (fp_steps stepR) stepSrt
  /\ exists out zo c', generate_phases (settings_after []) stepL stepR 0 1 stepSrt = Ok out
  /\ zmp_of tbs (z_after [ZStance (V2 (1/50) 0) (V2 (1/50) 0)]) (settings_after []) 0 1 stepL stepR out = Ok (zo, c')
  /\ nth_error (ph_left (go_ph out)) 3 = Some Stance.
Proof.
  destruct step_named. split; [exact tbs_contract|]. split; auto. split; auto. split; [exact step_sort|].
  destruct (step_zmp tbs (z_after [ZStance (V2 (1/50) 0) (V2 (1/50) 0)])) as (out & zo & H1 & _ & _ & Hl & Hz).
  exists out, zo. eexists. split; [exact H1|]. split; [exact Hz|]. rewrite Hl. reflexivity.
Qed.

(** C50: whenever the computation succeeds (merge points then strictly increase). *)
Theorem C50_states_at_merge_points : forall ops zops left right init dT srt out spl zo c',
  generate_phases (settings_after ops) left right init dT srt = Ok out ->
  zmp_of spl (z_after zops) (settings_after ops) init dT left right out = Ok (zo, c') ->
  length (zo_states zo) = length (ph_merge (go_ph out))
  /\ forall j p, nth_error (ph_merge (go_ph out)) j = Some p ->
     exists x, nth_error (zo_wl zo) p = Some x /\ nth_error (zo_states zo) j = Some (Some x).
Proof.
  intros ops zops left right init dT srt out spl zo c' Hg Hz. pose proof (good_history ops) as G. fold (settings_after ops) in G.
  eapply (run_states spl _ G); eauto.
Qed.
Print Assumptions C50_states_at_merge_points.
(** C50 for arbitrary merge points and weights, if the merge points strictly increase and are inside the trajectory. *)
Theorem C50_any_merge_points : forall mp ws, mp <> [] -> StronglySorted lt mp -> (forall m, In m mp -> (m < length ws)%nat) ->
  exists st, init_states mp ws = Ok st /\ length st = length mp
  /\ forall j p, nth_error mp j = Some p -> exists x, nth_error ws p = Some x /\ nth_error st j = Some (Some x).
Proof. exact init_states_ok. Qed.
Print Assumptions C50_any_merge_points.
(** Otherwise entries are missed; the generator never gets there because C38 (duplicates) implies an empty phase, on
    which the computation fails (C48). *)
Example C50_duplicates_are_missed : init_states [1%nat; 1%nat; 2%nat] [still 0; still 1; still (1/2)] = Ok [Some (still 1); None; None].
Proof. reflexivity. Qed.
Example C50_example : StronglySorted lt [0%nat; 2%nat] /\ init_states [0%nat; 2%nat] [still 0; still 1; still (1/2)] = Ok [Some (still 0); Some (still (1/2))].
Proof. split; [repeat constructor; lia|reflexivity]. Qed.

(** C51 in exact arithmetic: weights and local ZMPs never leave the buffers, whatever the foot prints, even with empty
    phases.  Missing for the full C51: binary64 arithmetic, where it is false, see [C51_overrun_refuted]. *)
Theorem C51_inside_buffers_partial : forall ops zops left right init dT srt out spl b,
  let g := settings_after ops in let c := z_after zops in let ph := go_ph out in
  generate_phases g left right init dT srt = Ok out -> dT <= 2 * g_endSwitch g ->
  foot_weight spl (ztimes_of g) dT (foot_phases ph b) (init_weight c) (ph_shift ph) <> UB
  /\ forall zs zw, local_zmp spl (ztimes_of g) dT (foot_phases ph b) zs zw (ph_shift ph) <> UB.
Proof.
  intros ops zops left right init dT srt out spl b g c ph Hg He. pose proof (good_history ops) as G. fold (settings_after ops) in G. fold g in G.
  destruct (generate_inv _ _ _ _ _ _ _ G Hg) as (l0 & r0 & _ & _ & Hd & _ & _ & _ & _ & _ & P & _).
  pose proof (end_samples g dT G Hd He) as Hes. split; [|intros zs zw]; apply (walk_defined spl g G dT init _ _ Hd _ _ P Hes b (init_weight c)); apply vzero.
Qed.
Print Assumptions C51_inside_buffers_partial.

Example C51_example : exists out, generate_phases (settings_after []) stepL stepR 0 1 stepSrt = Ok out /\ 1 <= 2 * g_endSwitch (settings_after []).
Proof. destruct step_run as (out & H & _). exists out. split; [exact H|]. cbn. lra. Qed.

(** C51, finding: in binary64 the last switch phase of the foot in SwitchOut is written one sample past the end of the
    vectors, for a sampling time of 10 ms and a terminal switch of 1.12 s (or 70 ms). *)
Theorem C51_overrun_refuted : exists endSwitch dT n m,
  PrimFloat.ltb 0 dT = true /\ PrimFloat.leb dT endSwitch = true /\ end_samples_f endSwitch dT = Some n /\ end_writes_f n dT = Some m /\ (m > n)%Z.
Proof. exists 0x1.1eb851eb851ecp+0%float, 0x1.47ae147ae147bp-7%float, 112%Z, 113%Z. vm_compute. repeat split; reflexivity. Qed.
Print Assumptions C51_overrun_refuted.

(** C51: rounding never adds more than one sample (binary64 as in Flocq: [fl] rounds to the nearest of the format). *)
Definition fl (x : R) : R := round radix2 (FLT_exp (-1074) 53) (Znearest (fun z => negb (Z.even z))) x.
Theorem C51_overrun_at_most_one : forall (n : nat) dT, bpow radix2 (-900) <= dT -> (0 < n)%nat -> INR n <= bpow radix2 50 ->
  (Zceil (fl (fl (INR n * dT) / dT)) <= Z.of_nat n + 1)%Z.
Proof.
  intros n dT Hd Hn Hb. assert (D0 : 0 < dT) by (eapply Rlt_le_trans; [apply bpow_gt_0|exact Hd]).
  assert (N1 : 1 <= INR n) by (apply (le_INR 1); lia).
  assert (Ex : forall x, bpow radix2 (-1022) <= x -> exists e, Rabs e <= / 2 * bpow radix2 (-52) /\ fl x = x * (1 + e)).
  { intros x Hx. destruct (relative_error_N_FLT_ex radix2 (-1074) 53 ltac:(reflexivity) (fun z => negb (Z.even z)) x) as (e & E1 & E2).
    - cbn [Z.add Z.sub Z.opp]. rewrite Rabs_pos_eq; [exact Hx|]. apply Rle_trans with (2 := Hx). apply bpow_ge_0.
    - exists e. split; [exact E1|exact E2]. }
  assert (B0 : bpow radix2 (-52) = / 4503599627370496) by reflexivity.
  assert (B1 : bpow radix2 (-1022) <= bpow radix2 (-900)) by (apply bpow_le; lia).
  assert (B2 : bpow radix2 (-1022) <= 1 / 2). { apply Rle_trans with (bpow radix2 (-1)); [apply bpow_le; lia|cbn; lra]. }
  destruct (Ex (INR n * dT)) as (e1 & E1 & ->). { apply Rle_trans with (1 := B1). apply Rle_trans with (1 := Hd). rewrite <- (Rmult_1_l dT) at 1. apply Rmult_le_compat_r; lra. }
  apply Rabs_le_inv in E1. rewrite B0 in E1. replace (INR n * dT * (1 + e1) / dT) with (INR n * (1 + e1)) by (field; lra).
  destruct (Ex (INR n * (1 + e1))) as (e2 & E2 & ->). { apply Rle_trans with (1 := B2). apply Rle_trans with (1 * (1 / 2)); [lra|]. apply Rmult_le_compat; lra. }
  apply Rabs_le_inv in E2. rewrite B0 in E2. apply Zceil_glb. rewrite plus_IZR, <- INR_IZR_INZ.
  assert (B3 : bpow radix2 50 = 1125899906842624) by reflexivity. rewrite B3 in Hb.
  assert (Q : (1 + e1) * (1 + e2) <= 1 + / 1125899906842624).
  { apply Rle_trans with ((1 + / 2 * / 4503599627370496) * (1 + / 2 * / 4503599627370496)); [apply Rmult_le_compat; lra|lra]. }
  rewrite Rmult_assoc. apply Rle_trans with (INR n * (1 + / 1125899906842624)); [apply Rmult_le_compat_l; lra|]. lra.
Qed.
Print Assumptions C51_overrun_at_most_one.
Example C51_at_most_one_example : bpow radix2 (-900) <= 1 / 100 /\ (0 < 112)%nat /\ INR 112 <= bpow radix2 50.
Proof.
  split; [|split; [lia|]].
  - apply Rle_trans with (bpow radix2 (-7)); [apply bpow_le; lia|]. cbn. lra.
  - rewrite INR_IZR_INZ. change (bpow radix2 50) with 1125899906842624. apply IZR_le. cbn. lia.
Qed.
