(** Properties C42, C43, C58, C70 and C71: the generator as a whole, driven by one thread. *)
From Coq Require Import String Reals Lra Lia ZArith List Bool Sorting.Sorted Sorting.Permutation.
From Verif Require Import Prelude EvalTac Rounding FootPrint Ellipse EllipseProofs GenPhases GenSpec GenProofs GenProofs2 GenProofs3 Properties_Generator
  FeetTraj FeetSpec FeetProofs FeetProofs2 FeetProofs3 ZMP ZMPSpec ZMPProofs ZMPProofs2 ZMPProofs3 ZMPProofs4 ZMPProofs5 Properties_ZMP CoMHeight
  DCM DCMSpec DCMProofs6 Properties_DCM Generator GeneratorSpec GeneratorProofs.
Import ListNotations.
Open Scope R_scope.
Notation Forall := List.Forall.

(** ** C42 *)
(** The two arguments are stored whether or not the generation succeeds; the settings never change. *)
Theorem C42_arguments_stored : forall spl hspl fspl g left right init dT srt,
  let g' := fst (generate_from spl hspl fspl g left right init dT srt) in gn_left g' = left /\ gn_right g' = right /\ gn_set g' = gn_set g.
Proof. intros. destruct (from_keeps spl hspl fspl g left right init dT srt) as (A & _ & B & C & _). auto. Qed.
(** What remains of C42: a generation from the stored foot prints keeps them, a refusal by the initial checks changes no
    result, and when the planner refuses without changing its arguments, reGenerate without measurements leaves exactly
    the present steps.  Missing: the other failures, where the property is false (below). *)
Theorem C42_kept_partial : forall spl hspl fspl g init dT srt,
  (forall o g', generate_from spl hspl fspl g (gn_left g) (gn_right g) init dT srt = (g', o) -> gn_left g' = gn_left g /\ gn_right g' = gn_right g)
  /\ (forall left right, gen_checks left right init dT = false -> generate_from spl hspl fspl g left right init dT srt = (with_fps left right g, Refused))
  /\ (forall plan garbage tend mL mR pl pr g', (forall l r a b, plan l r a b = (l, r, false)) -> should_reset garbage g = false ->
        present (gn_left g) init pl -> present (gn_right g) init pr -> 0 <= st_time pl -> 0 <= st_time pr ->
        regenerate spl hspl fspl plan garbage g init dT tend mL mR CNone srt = (g', Refused) ->
        gn_left g' = MkFP [MkStep (st_pos pl) (st_angle pl) (st_time pl) (fp_name (gn_left g))] (fp_name (gn_left g))
        /\ gn_right g' = MkFP [MkStep (st_pos pr) (st_angle pr) (st_time pr) (fp_name (gn_right g))] (fp_name (gn_right g))).
Proof.
  intros spl hspl fspl g init dT srt. split; [|split].
  - intros o g' H. destruct (from_keeps spl hspl fspl g (gn_left g) (gn_right g) init dT srt) as (_ & _ & B & C & _). rewrite H in *. auto.
  - intros left right H. unfold generate_from. rewrite H. reflexivity.
  - intros plan garbage tend mL mR pl pr g' Hp Hr P1 P2 T1 T2 H. destruct (replan_handed plan garbage g init tend mL mR CNone pl pr P1 P2 T1 T2) as (l1 & r1 & (tl & tr & Nt & K1 & K2) & Hh); try discriminate.
    destruct (Hh l1 r1 false (Hp _ _ _ _)) as (g1 & E & E1 & E2). unfold regenerate in H. rewrite E in H. cbn [negb] in H. injection H as <-. rewrite Hr in Nt. cbn [corr_left corr_right] in *.
    destruct Nt as [_ Nt]. destruct Nt as [-> ->]; [intros [[? _]|[? _]]; discriminate|]. unfold kept in *. split; congruence.
Qed.
(** Foot prints with a step replaced by ones without. *)
Lemma lr_from : forall spl hspl fspl, exists out, generate_phases (settings_after []) lrL lrR 0 (1/2) lrSrt = Ok out
  /\ generate_from spl hspl fspl gen_new lrL lrR 0 (1/2) lrSrt = (with_ph (Have out) (with_fps lrL lrR gen_new), Done).
Proof.
  intros spl hspl fspl. destruct lr_run as (out & G & _). exists out. split; auto. unfold generate_from, gen_new. cbn [with_fps gn_set]. replace (gen_checks lrL lrR 0 (1/2)) with true.
  - cbn [negb]. change gset_new with (settings_after []). rewrite G. reflexivity.
  - unfold gen_checks. cbn [lrL lrR fp_number fp_steps length fp_name Nat.ltb Nat.leb negb andb String.eqb Ascii.eqb Bool.eqb]. rewrite rleb_f by lra. rewrite rltb_f by (cbn; rewrite Rmax_left; lra). reflexivity.
Qed.
Theorem C42_arguments_refuted : forall spl hspl fspl, exists cs g g' left right init dT srt, session spl hspl fspl gen_new cs = Some (g, [Done])
  /\ generate_from spl hspl fspl g left right init dT srt = (g', Refused) /\ gn_left g' <> gn_left g.
Proof.
  intros spl hspl fspl. destruct (lr_from spl hspl fspl) as (out & _ & E). exists [KFrom lrL lrR 0 (1/2) lrSrt]. do 2 eexists. exists (MkFP [] "left"), lrR, 0, (1/2), lrSrt.
  split; [cbn [session perform]; rewrite E; reflexivity|]. split; [apply C42_kept_partial; reflexivity|]. discriminate.
Qed.
(** A measurement with a negative time: reGenerate returns false and the foot print is left without any step. *)
Theorem C42_regenerate_refuted : forall spl hspl fspl, exists cs g, session spl hspl fspl gen_new cs = Some (g, [Done]) /\ gn_left g = lrL
  /\ forall plan garbage tend srt, exists mL mR g', regenerate spl hspl fspl plan garbage g 0 (1/2) tend mL mR CLeft srt = (g', Refused) /\ gn_left g' = MkFP [] "left".
Proof.
  intros spl hspl fspl. destruct (lr_from spl hspl fspl) as (out & _ & E). exists [KFrom lrL lrR 0 (1/2) lrSrt]. eexists. split; [cbn [session perform]; rewrite E; reflexivity|]. split; [reflexivity|].
  intros plan garbage tend srt. exists (MkStep (V2 0 0) 0 (-1) "left"), (MkStep (V2 0 0) 0 0 "right"). eexists. unfold regenerate, replan. cbn [gen_new with_fps with_ph gn_left gn_right].
  rewrite (keep_present 0 lrL sL0), (keep_present 0 lrR sR0); cbn [negb].
  2:{ exists [], [sR1]. repeat split; cbn; try lra. repeat constructor. cbn. lra. }
  2:{ cbn. lra. }
  2:{ exists [], []. repeat split; cbn; try lra. constructor. }
  2:{ cbn. lra. }
  unfold fp_getLast. cbn [fp_steps last_opt should_reset gn_dcm]. unfold edited. cbn [corr_left corr_right edit_step st_time st_pos st_angle st_name andb orb].
  rewrite (rgtb_f (-1)) by lra. rewrite (rgtb_f (st_time sR0)) by (cbn; lra). cbn [orb]. unfold replace_by, fp_addStep', fp_addStep. cbn [st_time]. rewrite (rltb_t (-1)) by lra. cbn [negb]. split; reflexivity.
Qed.
Example C42_example : forall spl hspl fspl, exists g, session spl hspl fspl gen_new [KFrom lrL lrR 0 (1/2) lrSrt] = Some (g, [Done])
  /\ present (gn_left g) 4 sL0 /\ present (gn_right g) 4 sR1 /\ 0 <= st_time sL0 /\ 0 <= st_time sR1 /\ should_reset true g = false
  /\ gen_checks (MkFP [] "left") lrR 0 1 = false.
Proof.
  intros spl hspl fspl. destruct (lr_from spl hspl fspl) as (out & _ & E). eexists. split; [cbn [session perform]; rewrite E; reflexivity|]. cbn [gen_new with_fps with_ph gn_left gn_right].
  split; [exists [], []; repeat split; cbn; try lra; constructor|]. split; [exists [sR0], []; repeat split; cbn; try lra; constructor|]. cbn. repeat split; lra.
Qed.
Print Assumptions C42_arguments_stored.
Print Assumptions C42_kept_partial.
Print Assumptions C42_arguments_refuted.
Print Assumptions C42_regenerate_refuted.

(** ** C43 *)
(** When reGenerate succeeds the planner has been given, for each foot, one step: the present one, with position and
    heading of the measurement if the foot is corrected, and an impact time that is not after the new initial time. *)
Theorem C43_only_the_corrected_feet : forall spl hspl fspl plan garbage g init dT tend mL mR k srt g',
  regenerate spl hspl fspl plan garbage g init dT tend mL mR k srt = (g', Done) ->
  exists pl pr l1 r1, present (gn_left g) init pl /\ present (gn_right g) init pr
  /\ handed g init mL mR k (should_reset garbage g) pl pr l1 r1 /\ plan l1 r1 init tend = (gn_left g', gn_right g', true).
Proof.
  intros spl hspl fspl plan garbage g init dT tend mL mR k srt g' H. unfold regenerate in H. destruct (replan _ _ _ _ _ _ _ _) as [g1 [|]] eqn:E; cbn [negb] in H; [|discriminate].
  destruct (replan_inv _ _ _ _ _ _ _ _ _ E) as (pl & pr & l1 & r1 & l2 & r2 & P1 & P2 & Hh & Hp & <- & <-). exists pl, pr, l1, r1. repeat (split; [assumption|]).
  destruct (from_keeps spl hspl fspl g1 (gn_left g1) (gn_right g1) init dT srt) as (_ & _ & B & C & _). rewrite H in B, C. cbn [fst] in B, C. congruence.
Qed.
(** A correction also reaches the ZMP generator: it is told the steps that were present before the correction, left and
    right, and nothing else of it changes; without a correction it is not touched. *)
Theorem C43_zmp_is_told : forall plan garbage g init tend mL mR k g', replan plan garbage g init tend mL mR k = (g', true) ->
  exists pl pr, present (gn_left g) init pl /\ present (gn_right g) init pr
  /\ let told := (MkStep (st_pos pl) (st_angle pl) (st_time pl) (fp_name (gn_left g)),
                  MkStep (st_pos pr) (st_angle pr) (st_time pr) (fp_name (gn_right g))) in
     match gn_zmp g with
     | None => gn_zmp g' = None
     | Some z => gn_zmp g' = Some (if match k with CNone => should_reset garbage g | _ => true end
                                   then MkZ (z_stL z) (z_stR z) (z_swL z) (z_swR z) (z_init z) (Some told) else z)
     end.
Proof.
  intros plan garbage g init tend mL mR k g' H. unfold replan in H. destruct (fp_keepPresent init (gn_left g)) as [l okl] eqn:El. destruct okl; cbn [negb] in H; [|discriminate].
  destruct (fp_keepPresent init (gn_right g)) as [r okr] eqn:Er. destruct okr; cbn [negb] in H; [|discriminate].
  destruct (keep_inv _ _ _ El) as (pl & P1 & -> & T1). destruct (keep_inv _ _ _ Er) as (pr & P2 & -> & T2). unfold fp_getLast in H. cbn [fp_steps last_opt] in H.
  exists pl, pr. split; auto. split; auto. cbv zeta. set (corr := match k with CNone => should_reset garbage g | _ => true end) in *.
  destruct (edited _ _ _ _ _ _ _) as [el er].
  destruct (if corr && _ then replace_by el _ else _) as [l1 [|]]; cbn [negb] in H; [|discriminate].
  destruct (if corr && _ then replace_by er _ else _) as [r1 [|]]; cbn [negb] in H; [|discriminate].
  destruct (plan l1 r1 init tend) as [[l2 r2] [|]]; cbn [negb] in H; [|discriminate].
  injection H as <-. clearbody corr. destruct g as [? ? ? ? z]; destruct corr; destruct z; reflexivity.
Qed.
(** With present steps that have landed and measurements that are not from before the start, the planner is always asked. *)
Theorem C43_planner_is_asked : forall plan garbage g init tend mL mR k pl pr,
  present (gn_left g) init pl -> present (gn_right g) init pr -> 0 <= st_time pl -> 0 <= st_time pr ->
  (corr_left k = true -> 0 <= st_time mL) -> (corr_right k = true -> 0 <= st_time mR) ->
  exists l1 r1, handed g init mL mR k (should_reset garbage g) pl pr l1 r1
  /\ forall l2 r2 ok, plan l1 r1 init tend = (l2, r2, ok) -> exists g', replan plan garbage g init tend mL mR k = (g', ok) /\ gn_left g' = l2 /\ gn_right g' = r2.
Proof. intros. apply replan_handed; auto. Qed.
Theorem C43_times : forall g init mL mR k reset pl pr l1 r1, present (gn_left g) init pl -> present (gn_right g) init pr -> handed g init mL mR k reset pl pr l1 r1 ->
  exists sl sr, fp_steps l1 = [sl] /\ fp_steps r1 = [sr] /\ st_time sl <= init /\ st_time sr <= init.
Proof.
  intros g init mL mR k reset pl pr l1 r1 (? & ? & _ & T1 & _) (? & ? & _ & T2 & _) (tl & tr & Nt & K1 & K2). destruct (new_times_bounds init mL mR k _ _ _ _ _ Nt) as [B _]. destruct (B T1 T2) as [B1 B2].
  destruct (corr_left k); [destruct K1 as (a & -> & _)|rewrite K1]; (destruct (corr_right k); [destruct K2 as (b & -> & _)|rewrite K2]); cbn; do 2 eexists; repeat split; cbn; auto.
Qed.
(** The right foot is measured, a whole turn away from its heading: it takes the measured position and keeps its heading. *)
Example C43_example : let g := with_fps lrL lrR gen_new in let m := MkStep (V2 (25/100) (-1/10)) (2 * PI) 4 "right" in
  present (gn_left g) 4 sL0 /\ present (gn_right g) 4 sR1
  /\ forall plan garbage tend, (forall l r a b, plan l r a b = (l, r, true)) -> exists g', replan plan garbage g 4 tend m m CRight = (g', true)
     /\ gn_left g' = lrL /\ gn_right g' = MkFP [MkStep (V2 (25/100) (-1/10)) 0 4 "right"] "right".
Proof.
  intros g m. assert (P1 : present (gn_left g) 4 sL0) by (exists [], []; repeat split; cbn; try lra; constructor). assert (P2 : present (gn_right g) 4 sR1) by (exists [sR0], []; repeat split; cbn; try lra; constructor).
  split; auto. split; auto. intros plan garbage tend Hp.
  destruct (C43_planner_is_asked plan garbage g 4 tend m m CRight sL0 sR1 P1 P2) as (l1 & r1 & (tl & tr & Nt & K1 & K2) & Hh); try (cbn; lra); try (cbn; intros; lra).
  destruct (Hh _ _ _ (Hp _ _ _ _)) as (g' & E & E1 & E2). exists g'. split; auto. cbn [corr_left corr_right] in *. destruct Nt as [_ Nt]. destruct Nt as [-> ->]; [intros [[? _]|[_ ?]]; [discriminate|cbn in *; lra]|].
  unfold kept in K1. destruct K2 as (a & K2 & (z & Hz) & Ha). split; [rewrite E1, K1; reflexivity|]. rewrite E2, K2. cbn [gn_right g with_fps gen_new fp_name lrR m st_pos]. cbn [st_angle m sR1] in Hz, Ha. f_equal. f_equal. f_equal.
  pose proof PI_RGT_0 as Pp. rewrite Rminus_0_r in Ha. assert (Ba : - PI <= a <= PI) by (unfold Rabs in Ha; destruct (Rcase_abs a); lra).
  assert (Lz : -1 < IZR (z + 1) < 1).
  { rewrite plus_IZR. split.
    - apply (Rmult_lt_reg_r (2 * PI)); [lra|]. replace ((IZR z + 1) * (2 * PI)) with a by (rewrite Hz; ring). lra.
    - apply (Rmult_lt_reg_r (2 * PI)); [lra|]. replace ((IZR z + 1) * (2 * PI)) with a by (rewrite Hz; ring). lra. }
  destruct Lz as [Z1 Z2]. apply lt_IZR in Z1. apply lt_IZR in Z2. assert (z = (-1)%Z) by lia. subst z. rewrite Hz. ring.
Qed.
Print Assumptions C43_only_the_corrected_feet.
Print Assumptions C43_zmp_is_told.
Print Assumptions C43_planner_is_asked.
Print Assumptions C43_times.

(** ** C58 *)
Section Pending.
Variable spl : R -> R -> R -> R -> R -> R -> pva.
Variable hspl : R -> R -> R -> R -> pva.
Variable fspl : swing_splines.
(** Without a generator that runs after the DCM generator, the DCM initial state behaves as stated, in every session. *)
Lemma perform_dcm : forall g c g' o d, gn_dcm g = Some d -> gn_com g = None -> c <> KCfg GAddCom -> perform spl hspl fspl g c = (g', o) -> o <> Undefined ->
  gn_com g' = None /\ exists d', gn_dcm g' = Some d' /\ dc_init (dm_cfg d') = pending_dcm (dc_init (dm_cfg d)) [(c, o)].
Proof.
  intros g c g' o d Hd Hc Nc H No.
  assert (From : forall g l r i dT s d, gn_dcm g = Some d -> gn_com g = None -> generate_from spl hspl fspl g l r i dT s = (g', o) ->
    gn_com g' = None /\ exists d', gn_dcm g' = Some d' /\ dc_init (dm_cfg d') = match o with Done => None | _ => dc_init (dm_cfg d) end).
  { clear - No. intros g l r i dT s d Hd Hc H. destruct (from_keeps spl hspl fspl g l r i dT s) as (_ & _ & _ & _ & C & _). rewrite H in C. cbn [fst] in C. split; [congruence|]. destruct o; [| |congruence].
    - destruct (from_done _ _ _ _ _ _ _ _ _ _ H) as (out & _ & _ & _ & _ & _ & _ & D & _). destruct (D _ Hd) as (x & c' & Q & _ & E). rewrite E. eexists. split; [reflexivity|]. cbn [dm_cfg].
      unfold dcm_compute in Q. apply rbind_ok in Q. destruct Q as (ini & _ & Q). destruct (fp_steps l); [discriminate|]. destruct (fp_steps r); [discriminate|]. destruct (Rleb _ _); [discriminate|]. destruct (Rltb _ _); [discriminate|]. destruct (negb (pause_ok _)); [discriminate|].
      apply rbind_ok in Q. destruct Q as (tr & _ & Q). apply rbind_ok in Q. destruct Q as (ys & _ & Q). apply rbind_ok in Q. destruct Q as (ws & _ & Q). injection Q as _ <-. reflexivity.
    - destruct (from_refused _ _ _ _ _ _ _ _ _ _ H) as [F _]. specialize (F Hc). rewrite Hd in F. destruct (gn_dcm g') as [d'|]; [|discriminate]. injection F as F. exists d'. split; [reflexivity|]. rewrite F. reflexivity. }
  destruct c as [e|l r i dT s|p i dT t s|p gb i dT t mL mR k s]; cbn [perform] in H.
  - injection H as <- <-. split; [destruct e; destruct g as [h1 h2 h3 h4 h5 h6 h7 h8 h9 h10 h11 h12]; cbn in *; auto; [congruence|subst; reflexivity]|].
    destruct g as [h1 h2 h3 h4 h5 h6 h7 h8 h9 h10 h11 h12]. cbn in Hd, Hc. subst h6. destruct e; cbn; eauto.
    eexists. split; [reflexivity|]. cbn. destruct d as [[om al st la fi ol orr ini] v]. destruct o; cbn; unfold dc_run, dc_call; repeat match goal with |- context [if ?b then _ else _] => destruct b end; reflexivity.
  - destruct (From _ _ _ _ _ _ _ Hd Hc H) as (A & d' & B & C). split; auto. exists d'. split; [assumption|]. rewrite C. destruct o; reflexivity.
  - unfold generate in H. destruct (p _ _ _ _) as [[l r] ok]. destruct ok; cbn [negb] in H.
    + destruct (From (with_fps l r g) l r i dT s d) as (A & d' & B & C); auto; try (destruct g; assumption). split; auto. exists d'. split; [assumption|]. rewrite C. destruct o; reflexivity.
    + injection H as <- <-. split; [destruct g; assumption|]. exists d. split; [destruct g; assumption|reflexivity].
  - unfold regenerate in H. destruct (replan_keeps2 p gb g i t mL mR k) as (R1 & R2 & _). destruct (replan _ _ _ _ _ _ _ _) as [g1 ok]. cbn [fst] in R1, R2. destruct ok; cbn [negb] in H.
    + destruct (From g1 (gn_left g1) (gn_right g1) i dT s d) as (A & d' & B & C); auto; try congruence. split; auto. exists d'. split; [assumption|]. rewrite C. destruct o; reflexivity.
    + injection H as <- <-. split; [congruence|]. exists d. split; [congruence|reflexivity].
Qed.
Lemma pending_dcm_cons : forall x e r, pending_dcm x (e :: r) = pending_dcm (pending_dcm x [e]) r.
Proof. intros x [[[o1| | | | | |o1|o1|o1|o1|o1 o2]|l r0 i dT s|p i dT t s|p gb i dT t mL mR k s] o] r; try reflexivity; cbn; try (destruct o1; reflexivity); destruct o; reflexivity. Qed.
Theorem C58_dcm_state_partial : forall cs g g' os d, gn_dcm g = Some d -> gn_com g = None -> ~ In (KCfg GAddCom) cs -> session spl hspl fspl g cs = Some (g', os) ->
  exists d', gn_dcm g' = Some d' /\ dc_init (dm_cfg d') = pending_dcm (dc_init (dm_cfg d)) (combine cs os).
Proof.
  induction cs as [|c r IH]; intros g g' os d Hd Hc Hn H; cbn [session] in H; [injection H as <- <-; eauto|].
  destruct (perform spl hspl fspl g c) as [g1 o] eqn:E. assert (No : o <> Undefined) by (destruct o; discriminate).
  destruct (perform_dcm g c g1 o d Hd Hc) as (C & d1 & D & P); auto; [intros ->; apply Hn; left; auto|].
  destruct o; try congruence; destruct (session spl hspl fspl g1 r) as [[h os']|] eqn:E2; try discriminate; injection H as <- <-; cbn [combine]; rewrite pending_dcm_cons, <- P; apply (IH g1); auto; intros Q; apply Hn; right; auto.
Qed.

(** The same for the initial weight if neither a DCM nor a CoM height generator runs after the ZMP generator. *)
Lemma perform_zmp : forall g c g' o z, gn_zmp g = Some z -> gn_com g = None -> gn_dcm g = None -> c <> KCfg GAddCom -> c <> KCfg GAddDcm -> perform spl hspl fspl g c = (g', o) -> o <> Undefined ->
  gn_com g' = None /\ gn_dcm g' = None /\ exists z', gn_zmp g' = Some z' /\ z_init z' = pending_weight (z_init z) [(c, o)].
Proof.
  intros g c g' o z Hz Hc Hd Nc Nd H No.
  assert (From : forall g l r i dT s z, gn_zmp g = Some z -> gn_com g = None -> gn_dcm g = None -> generate_from spl hspl fspl g l r i dT s = (g', o) ->
    gn_com g' = None /\ gn_dcm g' = None /\ exists z', gn_zmp g' = Some z' /\ z_init z' = match o with Done => None | _ => z_init z end).
  { clear - No. intros g l r i dT s z Hz Hc Hd H. destruct (from_keeps spl hspl fspl g l r i dT s) as (_ & _ & _ & _ & C & _). rewrite H in C. cbn [fst] in C. split; [congruence|]. destruct o; [| |congruence].
    - destruct (from_done _ _ _ _ _ _ _ _ _ _ H) as (out & _ & _ & _ & _ & _ & Z & _ & _ & _ & _ & _ & _ & K & _). split; auto. destruct (Z _ Hz) as (x & c' & Q & _ & E). rewrite E. eexists. split; [reflexivity|].
      destruct (zmp_parts _ _ _ _ _ _ _ _ _ _ _ Q) as (? & ? & ? & _ & _ & _ & _ & _ & _ & _ & _ & ->). reflexivity.
    - destruct (from_refused _ _ _ _ _ _ _ _ _ _ H) as [F1 F2]. rewrite (F2 Hc Hd). specialize (F1 Hc). rewrite Hd in F1. destruct (gn_dcm g'); [discriminate|]. eauto. }
  destruct c as [e|l r i dT s|p i dT t s|p gb i dT t mL mR k s]; cbn [perform] in H.
  - injection H as <- <-. destruct g as [h1 h2 h3 h4 h5 h6 h7 h8 h9 h10 h11 h12]. cbn in Hz, Hc, Hd. subst h5 h6 h7. destruct e; cbn; try congruence; repeat split; eauto.
    eexists. split; [reflexivity|]. destruct o; reflexivity.
  - destruct (From _ _ _ _ _ _ _ Hz Hc Hd H) as (A & A2 & d' & B & C). repeat (split; auto). exists d'. split; [assumption|]. rewrite C. destruct o; reflexivity.
  - unfold generate in H. destruct (p _ _ _ _) as [[l r] ok]. destruct ok; cbn [negb] in H.
    + destruct (From (with_fps l r g) l r i dT s z) as (A & A2 & d' & B & C); auto; try (destruct g; assumption). repeat (split; auto). exists d'. split; [assumption|]. rewrite C. destruct o; reflexivity.
    + injection H as <- <-. split; [destruct g; assumption|]. split; [destruct g; assumption|]. exists z. split; [destruct g; assumption|reflexivity].
  - unfold regenerate in H. destruct (replan_keeps2 p gb g i t mL mR k) as (R1 & R2 & _ & R3). destruct (R3 z Hz) as (z1 & R4 & R5). destruct (replan _ _ _ _ _ _ _ _) as [g1 ok]. cbn [fst] in R1, R2, R4. destruct ok; cbn [negb] in H.
    + destruct (From g1 (gn_left g1) (gn_right g1) i dT s z1) as (A & A2 & d' & B & C); auto; try congruence. repeat (split; auto). exists d'. split; [assumption|]. rewrite C, R5. destruct o; reflexivity.
    + injection H as <- <-. split; [congruence|]. split; [congruence|]. exists z1. split; [congruence|]. rewrite R5. reflexivity.
Qed.
Lemma pending_weight_cons : forall x e r, pending_weight x (e :: r) = pending_weight (pending_weight x [e]) r.
Proof. intros x [[[o1| | | | | |o1|o1|o1|o1|o1 o2]|l r0 i dT s|p i dT t s|p gb i dT t mL mR k s] o] r; try reflexivity; cbn; try (destruct o1; reflexivity); destruct o; reflexivity. Qed.
Theorem C58_weight_partial : forall cs g g' os z, gn_zmp g = Some z -> gn_com g = None -> gn_dcm g = None -> ~ In (KCfg GAddCom) cs -> ~ In (KCfg GAddDcm) cs -> session spl hspl fspl g cs = Some (g', os) ->
  exists z', gn_zmp g' = Some z' /\ z_init z' = pending_weight (z_init z) (combine cs os).
Proof.
  induction cs as [|c r IH]; intros g g' os d Hz Hc Hd Hn Hm H; cbn [session] in H; [injection H as <- <-; eauto|].
  destruct (perform spl hspl fspl g c) as [g1 o] eqn:E. assert (No : o <> Undefined) by (destruct o; discriminate).
  destruct (perform_zmp g c g1 o d Hz Hc Hd) as (C & C2 & d1 & D & P); auto; [intros ->; apply Hn; left; auto|intros ->; apply Hm; left; auto|].
  destruct o; try congruence; destruct (session spl hspl fspl g1 r) as [[h os']|] eqn:E2; try discriminate; injection H as <- <-; cbn [combine]; rewrite pending_weight_cons, <- P; apply (IH g1); auto; intros Q; (apply Hn; right; auto; fail) || (apply Hm; right; auto).
Qed.
(** What is not used up is the velocity that reGenerate compares with zero: in every session it is the one set last or
    zero, however many generations have used it and however they ended. *)
Lemma from_state : forall g l r i dT s d, gn_dcm g = Some d -> exists d', gn_dcm (fst (generate_from spl hspl fspl g l r i dT s)) = Some d'
  /\ (d' = d \/ dm_st d' = dm_start d l r /\ (dc_init (dm_cfg d') = dc_init (dm_cfg d) \/ dc_init (dm_cfg d') = None)).
Proof.
  intros g l r i d s x0 Hd. unfold generate_from. destruct (negb _); [exists x0; split; [destruct g; exact Hd|auto]|]. destruct (generate_phases _ _ _ _ _ _) as [out| |]; [|exists x0; split; [destruct g; exact Hd|auto]..].
  set (hz := with_ph _ _). assert (E0 : gn_dcm hz = Some x0) by (unfold hz; destruct g; exact Hd). clearbody hz. clear Hd.
  assert (C : forall h, gn_dcm (fst (run_cubic fspl d l r out h)) = gn_dcm h). { intros h. unfold run_cubic. destruct (gn_cub h); [|reflexivity]. destruct (FeetSpline.spline_compute _ _ _ _ _ _ _ _ _); destruct h; reflexivity. }
  assert (F : forall h, gn_dcm (fst (run_feet d l r out h)) = gn_dcm h). { intros h. unfold run_feet. destruct (gn_feet h); [|reflexivity]. destruct (feet_compute _ _ _ _ _ _ _); destruct h; reflexivity. }
  assert (Z : forall h, gn_dcm (fst (run_zmp spl i d l r out h)) = gn_dcm h). { intros h. unfold run_zmp. destruct (gn_zmp h); [|reflexivity]. destruct (zmp_compute _ _ _ _ _ _ _ _ _) as [[? ?]| |]; destruct h; reflexivity. }
  assert (H : forall h, gn_dcm (fst (run_com hspl d out h)) = gn_dcm h). { intros h. unfold run_com. destruct (gn_com h); [|reflexivity]. destruct (height_compute _ _ _ _ _); destruct h; reflexivity. }
  specialize (C hz). destruct (run_cubic fspl d l r out hz) as [h0 o0]. cbn [fst] in C. destruct o0; cbn [andthen fst snd]; try (exists x0; split; [congruence|auto]).
  specialize (F h0). destruct (run_feet d l r out h0) as [h1 o1]. cbn [fst] in F. destruct o1; cbn [andthen fst snd]; try (exists x0; split; [congruence|auto]).
  specialize (Z h1). destruct (run_zmp spl i d l r out h1) as [h2 o2]. cbn [fst] in Z. destruct o2; cbn [andthen fst snd]; try (exists x0; split; [congruence|auto]).
  assert (E2 : gn_dcm h2 = Some x0) by congruence.
  assert (D : exists d', gn_dcm (fst (run_dcm i d l r out h2)) = Some d' /\ dm_st d' = dm_start x0 l r /\ (dc_init (dm_cfg d') = dc_init (dm_cfg x0) \/ dc_init (dm_cfg d') = None)).
  { unfold run_dcm. rewrite E2. destruct (dcm_compute _ _ _ _ _ _ _ _) as [[o c']| |] eqn:Q; cbn [fst].
    - exists (MkDM c' (dm_start x0 l r)). split; [destruct h2; reflexivity|]. split; [reflexivity|]. right. cbn [dm_cfg].
      unfold dcm_compute in Q. apply rbind_ok in Q. destruct Q as (ini & _ & Q). destruct (fp_steps l); [discriminate|]. destruct (fp_steps r); [discriminate|]. destruct (Rleb _ _); [discriminate|]. destruct (Rltb _ _); [discriminate|]. destruct (negb (pause_ok _)); [discriminate|].
      apply rbind_ok in Q. destruct Q as (tr & _ & Q). apply rbind_ok in Q. destruct Q as (ys & _ & Q). apply rbind_ok in Q. destruct Q as (ws & _ & Q). injection Q as _ <-. reflexivity.
    - exists (MkDM (dm_cfg x0) (dm_start x0 l r)). split; [destruct h2; reflexivity|]. split; [reflexivity|]. left. reflexivity.
    - exists (MkDM (dm_cfg x0) (dm_start x0 l r)). split; [destruct h2; reflexivity|]. split; [reflexivity|]. left. reflexivity. }
  destruct D as (d' & D1 & D2). destruct (run_dcm i d l r out h2) as [h3 o3]. cbn [fst] in D1. exists d'. split; [|auto]. destruct o3; cbn [andthen fst snd]; [|exact D1..]. rewrite (H h3). exact D1.
Qed.
Lemma perform_state : forall c g g' o d, gn_dcm g = Some d -> perform spl hspl fspl g c = (g', o) -> exists d', gn_dcm g' = Some d'
  /\ match c with KCfg (GDcm e) => d' = dm_call d e | KCfg _ => d' = d
     | _ => d' = d \/ exists l r, dm_st d' = dm_start d l r /\ (dc_init (dm_cfg d') = dc_init (dm_cfg d) \/ dc_init (dm_cfg d') = None) end.
Proof.
  intros c g g' o d Hd H.
  assert (From : forall g l r i dT s, gn_dcm g = Some d -> generate_from spl hspl fspl g l r i dT s = (g', o) -> exists d', gn_dcm g' = Some d'
     /\ (d' = d \/ exists l r, dm_st d' = dm_start d l r /\ (dc_init (dm_cfg d') = dc_init (dm_cfg d) \/ dc_init (dm_cfg d') = None))).
  { intros h l r i dT s Hh E. destruct (from_state h l r i dT s d Hh) as (d' & A & B). rewrite E in A. exists d'. split; [exact A|]. destruct B as [B|B]; [left; exact B|right; eauto]. }
  destruct c as [e|l r i dT s|p i dT t s|p gb i dT t mL mR k s]; cbn [perform] in H.
  - injection H as <- <-. destruct g as [h1 h2 h3 h4 h5 h6 h7 h8 h9 h10 h11 h12]. cbn in Hd. subst h6. destruct e; cbn; eauto.
  - eauto.
  - unfold generate in H. destruct (p _ _ _ _) as [[l r] ok]. destruct ok; cbn [negb] in H.
    + apply (From (with_fps l r g) l r i dT s); auto. destruct g; assumption.
    + injection H as <- <-. exists d. split; [destruct g; assumption|auto].
  - unfold regenerate in H. destruct (replan_keeps2 p gb g i t mL mR k) as (R1 & _). destruct (replan _ _ _ _ _ _ _ _) as [g1 ok]. cbn [fst] in R1. destruct ok; cbn [negb] in H.
    + apply (From g1 (gn_left g1) (gn_right g1) i dT s); auto; congruence.
    + injection H as <- <-. exists d. split; [congruence|auto].
Qed.
Lemma start_velocity : forall d l r, option_map snd (dm_start d l r) = dm_vel d \/ option_map snd (dm_start d l r) = Some vzero.
Proof. intros d l r. unfold dm_start, dm_vel. destruct (dc_init (dm_cfg d)); auto. destruct (fp_steps l); auto. destruct (fp_steps r); auto. Qed.
Theorem C58_velocity_stays : forall cs g g' os d, gn_dcm g = Some d -> session spl hspl fspl g cs = Some (g', os) ->
  exists d', gn_dcm g' = Some d' /\ (dm_vel d' = last_velocity (dm_vel d) cs \/ dm_vel d' = Some vzero).
Proof.
  assert (St : forall c g g' o d, gn_dcm g = Some d -> perform spl hspl fspl g c = (g', o) -> exists d', gn_dcm g' = Some d' /\ (dm_vel d' = last_velocity (dm_vel d) [c] \/ dm_vel d' = Some vzero /\ last_velocity (dm_vel d) [c] = dm_vel d)).
  { intros c g g' o d Hd H. destruct (perform_state c g g' o d Hd H) as (d' & A & B). exists d'. split; [exact A|].
    assert (Gen : d' = d \/ (exists l r, dm_st d' = dm_start d l r /\ (dc_init (dm_cfg d') = dc_init (dm_cfg d) \/ dc_init (dm_cfg d') = None)) -> dm_vel d' = dm_vel d \/ dm_vel d' = Some vzero /\ dm_vel d = dm_vel d).
    { intros [-> |(l & r & E & _)]; [auto|]. unfold dm_vel at 1 3. rewrite E. destruct (start_velocity d l r); auto. }
    destruct c as [e|l r i dT s|p i dT t s|p gb i dT t mL mR k s]; cbn; auto. left. destruct e; subst d'; try reflexivity. destruct o0; reflexivity. }
  assert (Cons : forall c r x, last_velocity x (c :: r) = last_velocity (last_velocity x [c]) r).
  { intros [[o1| | | | | |o1|o1|o1|o1|o1 o2]|l r0 i dT s|p i dT t s|p gb i dT t mL mR k s] r x; try reflexivity; destruct o1; reflexivity. }
  assert (Forget : forall r x, last_velocity x r = x \/ forall y, last_velocity y r = last_velocity x r).
  { induction r as [|c r IH]; intros x; [left; reflexivity|]. rewrite (Cons c r x). destruct (IH (last_velocity x [c])) as [E|E].
    - rewrite E. assert (Q : last_velocity x [c] = x \/ forall y, last_velocity y [c] = last_velocity x [c]).
      { destruct c as [[o1| | | | | |o1|o1|o1|o1|o1 o2]|l r0 i dT s|p i dT t s|p gb i dT t mL mR k s]; cbn; auto. destruct o1; cbn; auto. }
      destruct Q as [Q|Q]; [auto|]. right. intros y. rewrite (Cons c r y), Q, E. reflexivity.
    - right. intros y. rewrite (Cons c r y). apply E. }
  induction cs as [|c r IH]; intros g g' os d Hd H; cbn [session] in H; [injection H as <- <-; eauto|].
  destruct (perform spl hspl fspl g c) as [g1 o] eqn:E. destruct (St c g g1 o d Hd E) as (d1 & D & P). rewrite Cons.
  assert (Q : exists h os', session spl hspl fspl g1 r = Some (h, os') /\ h = g') by (destruct o; try discriminate; destruct (session spl hspl fspl g1 r) as [[h os']|]; try discriminate; injection H as <- <-; eauto).
  destruct Q as (h & os' & Q & ->). destruct (IH g1 g' os' d1 D Q) as (d' & A & [B|B]); exists d'; (split; [exact A|]); auto.
  destruct P as [P|[P _]]; [rewrite <- P; auto|]. rewrite P in B. destruct (Forget r (Some vzero)) as [F|F]; [right; congruence|]. left. rewrite B. symmetry. apply F.
Qed.

(** ** C93: getDCMInitialState returns the state from which the trajectories start. *)
Definition dm_good (g : gen) : Prop := forall d x, gn_dcm g = Some d -> dc_init (dm_cfg d) = Some x -> dm_st d = Some x.
Lemma good_session : forall cs g g' os, dm_good g -> session spl hspl fspl g cs = Some (g', os) -> dm_good g'.
Proof.
  assert (St : forall c g g' o, dm_good g -> perform spl hspl fspl g c = (g', o) -> dm_good g').
  { intros c g g' o Gd H. destruct (gn_dcm g) as [d|] eqn:Hd.
    - destruct (perform_state c g g' o d Hd H) as (d' & A & B). intros d2 x E I. assert (d2 = d') by congruence. subst d2. clear E.
      assert (Gen : d' = d \/ (exists l r, dm_st d' = dm_start d l r /\ (dc_init (dm_cfg d') = dc_init (dm_cfg d) \/ dc_init (dm_cfg d') = None)) -> dm_st d' = Some x).
      { intros [-> |(l & r & E & [Q|Q])]; [eauto| |congruence]. rewrite E. unfold dm_start. rewrite <- Q, I. apply (Gd d x); congruence. }
      destruct c as [e|l r i dT s|p i dT t s|p gb i dT t mL mR k s]; auto. destruct e; subst d'; eauto.
      destruct o0; cbn [dm_call dm_st dm_cfg] in *; try (apply (Gd d x Hd); rewrite <- I; unfold dc_run, dc_call; repeat match goal with |- context [if ?b then _ else _] => destruct b end; destruct (dm_cfg d); reflexivity).
      rewrite <- I. unfold dc_run, dc_call. repeat match goal with |- context [if ?b then _ else _] => destruct b end; destruct (dm_cfg d); reflexivity.
    - assert (From : forall h l r i dT s, gn_dcm h = None -> gn_dcm (fst (generate_from spl hspl fspl h l r i dT s)) = None).
      { clear. intros h l r i dT s Hn. unfold generate_from. destruct (negb _); [destruct h; exact Hn|]. destruct (generate_phases _ _ _ _ _ _) as [out| |]; [|destruct h; exact Hn..].
        set (hz := with_ph _ _). assert (E0 : gn_dcm hz = None) by (unfold hz; destruct h; exact Hn). clearbody hz. clear Hn.
        pose proof (cub_keeps fspl dT l r out hz) as C. destruct (run_cubic fspl dT l r out hz) as [h0 o0]. cbn [fst] in C. destruct o0; cbn [andthen fst snd]; try (intuition congruence).
        pose proof (feet_keeps dT l r out h0) as F. destruct (run_feet dT l r out h0) as [h1 o1]. cbn [fst] in F. destruct o1; cbn [andthen fst snd]; try (intuition congruence).
        pose proof (zmp_keeps spl i dT l r out h1) as Z. destruct (run_zmp spl i dT l r out h1) as [h2 o2]. cbn [fst] in Z. destruct o2; cbn [andthen fst snd]; try (intuition congruence).
        unfold run_dcm. assert (E2 : gn_dcm h2 = None) by intuition congruence. rewrite E2. cbn [andthen fst snd]. pose proof (com_keeps hspl dT out h2) as K. intuition congruence. }
      destruct c as [e|l r i dT s|p i dT t s|p gb i dT t mL mR k s]; cbn [perform] in H.
      + injection H as <- <-. destruct g as [h1 h2 h3 h4 h5 h6 h7 h8 h9 h10 h11 h12]. cbn in Hd. subst h6. intros d x E I. destruct e; cbn in E; try discriminate. injection E as <-. discriminate.
      + intros d x E. specialize (From g l r i dT s Hd). rewrite H in From. cbn [fst] in From. congruence.
      + unfold generate in H. destruct (p _ _ _ _) as [[l r] ok]. intros d x E. destruct ok; cbn [negb] in H.
        * assert (Hn : gn_dcm (with_fps l r g) = None) by (destruct g; exact Hd). specialize (From (with_fps l r g) l r i dT s Hn). rewrite H in From. cbn [fst] in From. congruence.
        * injection H as <- <-. destruct g; cbn in *; congruence.
      + unfold regenerate in H. destruct (replan_keeps2 p gb g i t mL mR k) as (R1 & _). destruct (replan _ _ _ _ _ _ _ _) as [g1 ok]. cbn [fst] in R1. intros d x E. destruct ok; cbn [negb] in H.
        * assert (Hn : gn_dcm g1 = None) by congruence. specialize (From g1 (gn_left g1) (gn_right g1) i dT s Hn). rewrite H in From. cbn [fst] in From. congruence.
        * injection H as <- <-. congruence. }
  induction cs as [|c r IH]; intros g g' os Gd H; cbn [session] in H; [injection H as <- _; auto|].
  destruct (perform spl hspl fspl g c) as [g1 o] eqn:E. pose proof (St c g g1 o Gd E) as G1.
  destruct o; try discriminate; destruct (session spl hspl fspl g1 r) as [[h os']|] eqn:E2; try discriminate; injection H as <- _; eauto.
Qed.
(** Settings other than the initial state do not change what is shown. *)
Definition sets_state (e : gev) : Prop := match e with GDcm (DInit _ _) => True | _ => False end.
Lemma settings_state : forall es g d, gn_dcm g = Some d -> (forall e, In e es -> ~ sets_state e) ->
  exists d', gn_dcm (fold_left gn_call es g) = Some d' /\ dm_st d' = dm_st d.
Proof.
  induction es as [|e es IH]; intros g d Hd Hn; [exists d; auto|]. cbn [fold_left].
  assert (St : exists d1, gn_dcm (gn_call g e) = Some d1 /\ dm_st d1 = dm_st d).
  { destruct g as [h1 h2 h3 h4 h5 h6 h7 h8 h9 h10 h11 h12]. cbn in Hd. subst h6. pose proof (Hn e (or_introl eq_refl)) as Ne. destruct e; cbn; eauto. destruct o; cbn; try (eexists; split; reflexivity). exfalso. apply Ne. exact I. }
  destruct St as (d1 & D1 & S1). destruct (IH _ d1 D1) as (d' & A & B); [intros; apply Hn; right; auto|]. exists d'. split; [exact A|congruence].
Qed.
(** After any session a successful generation shows the state it started from, whatever is set afterwards except a new
    initial state. *)
Theorem C93_state_shown : forall cs g os d left right init dT srt g' es, session spl hspl fspl gen_new cs = Some (g, os) -> gn_dcm g = Some d ->
  generate_from spl hspl fspl g left right init dT srt = (g', Done) -> (forall e, In e es -> ~ sets_state e) ->
  exists d' p v, gn_dcm (fold_left gn_call es g') = Some d' /\ dm_st d' = Some (p, v) /\ initial_state (dm_cfg d) left right p v.
Proof.
  intros cs g os d left right init dT srt g' es Hs Hd H Hn. assert (Gd : dm_good g) by (apply (good_session cs gen_new g os); auto; intros ? ? E; discriminate).
  destruct (from_done _ _ _ _ _ _ _ _ _ _ H) as (out & _ & _ & _ & _ & _ & _ & D & _). destruct (D _ Hd) as (o & c' & Q & _ & E).
  destruct (settings_state es g' _ E Hn) as (d' & A & B). cbn [dm_st] in B. exists d'.
  unfold initial_state. unfold dm_start in B. destruct (dc_init (dm_cfg d)) as [[p v]|] eqn:Ei.
  - exists p, v. split; [exact A|]. split; [rewrite B; eauto|]. left. reflexivity.
  - unfold dcm_compute in Q. rewrite Ei in Q. destruct (fp_steps left) as [|l0 lt]; [discriminate|]. destruct (fp_steps right) as [|r0 rt]; [discriminate|].
    do 2 eexists. split; [exact A|]. split; [exact B|]. right. split; [reflexivity|]. split; [reflexivity|]. exists l0, r0. split; [reflexivity|]. split; [reflexivity|]. split; cbn; lra.
Qed.
(** What reGenerate then does: with a given initial state its velocity decides, and after a generation without one both
    feet are handed to the planner as landed together. *)
Theorem C93_given_decides : forall gb g d p v es, gn_dcm g = Some d -> (forall e, In e es -> ~ sets_state e) ->
  should_reset gb (fold_left gn_call es (gn_call g (GDcm (DInit p v)))) = Rltb (vnorm v) (1 / 100000).
Proof.
  intros gb g d p v es Hd Hn. assert (E : gn_dcm (gn_call g (GDcm (DInit p v))) = Some (dm_call d (DInit p v))) by (destruct g; cbn in *; rewrite Hd; reflexivity).
  destruct (settings_state es _ _ E Hn) as (d' & A & B). unfold should_reset. rewrite A. unfold dm_vel. rewrite B. reflexivity.
Qed.
Theorem C93_default_resets : forall gb g d left right init dT srt g' es, gn_dcm g = Some d -> dc_init (dm_cfg d) = None ->
  generate_from spl hspl fspl g left right init dT srt = (g', Done) -> (forall e, In e es -> ~ sets_state e) ->
  should_reset gb (fold_left gn_call es g') = true.
Proof.
  intros gb g d left right init dT srt g' es Hd Ei H Hn. destruct (from_done _ _ _ _ _ _ _ _ _ _ H) as (out & _ & _ & _ & _ & _ & _ & D & _). destruct (D _ Hd) as (o & c' & Q & _ & E).
  destruct (settings_state es g' _ E Hn) as (d' & A & B). cbn [dm_st] in B. unfold dm_start in B. unfold dcm_compute in Q. rewrite Ei in B, Q.
  destruct (fp_steps left) as [|l0 lt]; [discriminate|]. destruct (fp_steps right) as [|r0 rt]; [discriminate|].
  unfold should_reset. rewrite A. unfold dm_vel. rewrite B. cbn [option_map snd]. apply rltb_t. unfold vnorm. replace (vnorm2 vzero) with 0 by (unfold vnorm2, vzero; cbn; ring). rewrite sqrt_0. lra.
Qed.
End Pending.
(** The pending state is the one used: the first reported DCM is it, or the default if there is none. *)
Theorem C58_dcm_used_partial : forall spl hspl fspl ops g g' d left right init dT srt out, gn_set g = settings_after ops -> gn_dcm g = Some d ->
  generate_from spl hspl fspl g left right init dT srt = (g', Done) -> gn_ph g' = Have out -> run_ok ops left right init dT srt out (dm_cfg d) ->
  exists o y p v, gn_dcmO g' = Have o /\ nth_error (do_samples o) 0 = Some y /\ ds_p y = Some p /\ ds_v y = Some v /\ initial_state (dm_cfg d) left right p v.
Proof.
  intros spl hspl fspl ops g g' d left right init dT srt out Es Hd H Ho R. destruct (from_done _ _ _ _ _ _ _ _ _ _ H) as (out' & Gen & Ho' & _ & _ & _ & _ & D & _). assert (out' = out) by congruence. subst out'.
  destruct (D _ Hd) as (o & c' & Q & Qo & _). destruct (C55_continuous_partial _ _ _ _ _ _ _ _ R) as (o2 & c2 & X & V & E & _ & _ & _ & (p & v & I & X0 & V0) & _ & _ & L & K).
  rewrite Es in Q. unfold dcm_of in E. rewrite Q in E. injection E as <- <-.
  destruct (nth_error (do_samples o) 0) as [y|] eqn:Ey.
  - exists o, y, p, v. split; auto. split; auto. specialize (K 0%nat y Ey). cbn [INR] in K. rewrite Rmult_0_l, X0, V0 in K. rewrite K. auto.
  - exfalso. apply nth_error_None in Ey. rewrite L in Ey. destruct R as (_ & Gn & _ & Ne & _). destruct (generate_inv _ _ _ _ _ _ _ (good_history ops) Gn) as (l0 & r0 & _ & _ & _ & _ & _ & _ & _ & _ & P & _). destruct P.
    rewrite (p_size true : length (ph_left _) = _) in Ey. assert (A1 : (bnd (go_ph out) 1 <= bnd (go_ph out) (2 * length (planned (go_ord out)) + 1))%nat) by (apply p_mono; lia).
    assert (A2 : (0 < bnd (go_ph out) 1)%nat). { apply (Ne 0%nat). - rewrite (nth_error_nth' _ 0%nat) by lia. f_equal. exact p_hd. - apply nth_error_nth'. lia. } lia.
Qed.
Lemma initial_state_unique : forall c l r p v p' v', initial_state c l r p v -> initial_state c l r p' v' -> p = p' /\ v = v'.
Proof.
  intros c l r p v p' v' [A|(A & -> & l0 & r0 & L & R0 & M)] [B|(B & -> & l1 & r1 & L' & R0' & M')]; try congruence.
  - rewrite A in B. injection B. auto.
  - split; [|reflexivity]. assert (l1 = l0) by congruence. assert (r1 = r0) by congruence. subst. destruct M as [M1 M2], M' as [M3 M4]. destruct p, p'. cbn in *. f_equal; congruence.
Qed.
(** So the state shown is the first entry of the reported trajectory.  Not covered: the runs outside [run_ok], see C55. *)
Theorem C93_first_sample_partial : forall spl hspl fspl cs os ops g g' d left right init dT srt out es, session spl hspl fspl gen_new cs = Some (g, os) ->
  gn_set g = settings_after ops -> gn_dcm g = Some d -> generate_from spl hspl fspl g left right init dT srt = (g', Done) -> gn_ph g' = Have out ->
  run_ok ops left right init dT srt out (dm_cfg d) -> (forall e, In e es -> ~ sets_state e) ->
  exists d' o y p v, gn_dcm (fold_left gn_call es g') = Some d' /\ dm_st d' = Some (p, v)
  /\ gn_dcmO g' = Have o /\ nth_error (do_samples o) 0 = Some y /\ ds_p y = Some p /\ ds_v y = Some v.
Proof.
  intros spl hspl fspl cs os ops g g' d left right init dT srt out es Hs Es Hd H Ho R Hn.
  destruct (C93_state_shown _ _ _ _ _ _ _ _ _ _ _ _ _ _ Hs Hd H Hn) as (d' & p & v & A & B & I).
  destruct (C58_dcm_used_partial _ _ _ _ _ _ _ _ _ _ _ _ _ Es Hd H Ho R) as (o & y & p' & v' & C & D & E & F & I').
  destruct (initial_state_unique _ _ _ _ _ _ _ I I') as [<- <-]. exists d', o, y, p, v. auto 10.
Qed.
Theorem C58_weight_used_partial : forall spl hspl fspl ops g g' z left right init dT srt, spline_contract spl -> gn_set g = settings_after ops -> gn_zmp g = Some z ->
  generate_from spl hspl fspl g left right init dT srt = (g', Done) -> (g_pause (gn_set g) = true -> dT <= 2 * g_endSwitch (gn_set g)) ->
  exists o w, gn_zmpO g' = Have o /\ nth_error (zo_wl o) 0 = Some w
  /\ match z_init z with Some x => p_p w = p_p x /\ p_v w = p_v x | None => p_p w = 1 / 2 /\ p_v w = 0 end.
Proof.
  intros spl hspl fspl ops g g' z left right init dT srt Hs Es Hz H He. destruct (from_done _ _ _ _ _ _ _ _ _ _ H) as (out & Gen & _ & _ & _ & _ & Z & _).
  destruct (Z _ Hz) as (o & c' & Q & Qo & _). rewrite Es in *. destruct (zmp_first spl _ _ _ _ _ _ _ _ _ _ (good_history ops) Hs Gen Q He) as (w & E & W1 & W2). exists o, w. split; auto. split; auto.
  unfold init_weight in *. destruct (z_init z); auto.
Qed.
(** Not so when a later generator fails: the call returns false, and the weight is gone. *)
Lemma step_checks : gen_checks stepL stepR 0 1 = true.
Proof.
  unfold gen_checks. cbn [stepL stepR fp_number fp_steps length fp_name Nat.ltb Nat.leb negb andb String.eqb Ascii.eqb Bool.eqb]. rewrite rleb_f by lra. rewrite rltb_f by (cbn; rewrite Rmax_left; lra). reflexivity.
Qed.
Theorem C58_failure_refuted : forall spl hspl fspl w, exists g z, 
  session spl hspl fspl gen_new [KCfg GAddZmp; KCfg GAddCom; KCfg (GZmp (ZInit w)); KFrom stepL stepR 0 1 stepSrt] = Some (g, [Done; Done; Done; Refused])
  /\ gn_zmp g = Some z /\ z_init z = None.
Proof.
  intros spl hspl fspl w. set (c := z_call z_new (ZInit w)). destruct (step_zmp spl c) as (out & zo & Gen & _ & _ & _ & Hz). unfold zmp_of in Hz.
  cbn [session perform gn_call gen_new with_zmp with_com attach option_map gn_zmp gn_com]. fold c. unfold generate_from. cbn [with_fps gn_set]. rewrite step_checks. cbn [negb]. change gset_new with (settings_after []). rewrite Gen.
  unfold run_cubic. cbn [with_ph gn_cub andthen snd fst]. unfold run_feet. cbn [gn_feet andthen snd fst]. unfold run_zmp. cbn [gn_zmp gn_set]. rewrite Hz. cbn [andthen snd fst]. unfold run_dcm. cbn [with_zmp with_zmpO gn_dcm andthen snd fst]. unfold run_com. cbn [gn_com].
  unfold height_compute, h_new. cbn [h_nom]. rewrite rltb_t by lra. do 2 eexists. split; [reflexivity|]. split; reflexivity.
Qed.
(** Nor is the DCM state used only once: its velocity, though used, still decides what a later reGenerate hands to the
    planner.  The left foot landed at 0 and the right one at 4; nothing is measured; the left foot is handed over as
    landed at 4. *)
Theorem C58_stale_velocity_refuted : forall spl hspl fspl p, exists g d,
  session spl hspl fspl gen_new [KCfg GAddDcm; KCfg (GDcm (DInit p vzero)); KFrom lrL lrR 0 (1/2) lrSrt] = Some (g, [Done; Done; Done])
  /\ gn_dcm g = Some d /\ dc_init (dm_cfg d) = None
  /\ forall plan garbage tend mL mR, (forall l r a b, plan l r a b = (l, r, true)) -> exists g', replan plan garbage g 4 tend mL mR CNone = (g', true)
     /\ fp_steps (gn_left g') = [MkStep (st_pos sL0) (st_angle sL0) 4 "left"].
Proof.
  intros spl hspl fspl p. pose proof lr_usable as R. destruct lr_run as (out & Gen & _). rewrite Gen in R. set (c := dc_run dc_new (DInit p vzero)).
  assert (R2 : run_ok [] lrL lrR 0 (1/2) lrSrt out c) by exact R. clear R. destruct (run_facts _ _ _ _ _ _ _ _ R2) as (o & _ & _ & _ & _ & _ & _ & _ & Ho & _). unfold dcm_of in Ho.
  assert (Ck : gen_checks lrL lrR 0 (1/2) = true).
  { unfold gen_checks. cbn [lrL lrR fp_number fp_steps length fp_name Nat.ltb Nat.leb negb andb String.eqb Ascii.eqb Bool.eqb]. rewrite rleb_f by lra. rewrite rltb_f by (cbn; rewrite Rmax_left; lra). reflexivity. }
  cbn [session perform gn_call gen_new with_dcm attach option_map gn_dcm]. unfold dm_call, dm_new. cbn [dm_cfg]. fold c. unfold generate_from. cbn [with_fps gn_set]. rewrite Ck. cbn [negb]. change gset_new with (settings_after []). rewrite Gen.
  unfold run_cubic. cbn [with_ph gn_cub andthen snd fst]. unfold run_feet. cbn [gn_feet andthen snd fst]. unfold run_zmp. cbn [gn_zmp andthen snd fst]. unfold run_dcm. cbn [gn_dcm gn_set dm_cfg dm_vel]. rewrite Ho. cbn [andthen snd fst with_dcm with_dcmO]. unfold run_com. cbn [gn_com].
  do 2 eexists. split; [reflexivity|]. cbn [gn_dcm]. split; [reflexivity|]. split; [reflexivity|]. intros plan garbage tend mL mR Hp.
  set (g := MkGen _ _ _ _ _ _ _ _ _ _ _ _ _ _). assert (Hr : should_reset garbage g = true).
  { change (Rltb (vnorm vzero) (1 / 100000) = true). apply rltb_t. unfold vnorm. replace (vnorm2 vzero) with 0 by (unfold vnorm2, vzero; cbn; ring). rewrite sqrt_0. lra. }
  assert (P1 : present (gn_left g) 4 sL0) by (exists [], []; repeat split; cbn; try lra; constructor). assert (P2 : present (gn_right g) 4 sR1) by (exists [sR0], []; repeat split; cbn; try lra; constructor).
  destruct (C43_planner_is_asked plan garbage g 4 tend mL mR CNone sL0 sR1 P1 P2) as (l1 & r1 & (tl & tr & Nt & K1 & K2) & Hh); try (cbn; lra); try (cbn; intros; discriminate).
  destruct (Hh _ _ _ (Hp _ _ _ _)) as (g' & E & E1 & E2). exists g'. split; auto. rewrite Hr in Nt. destruct Nt as [-> _]. cbn [corr_left] in K1. unfold kept in K1. rewrite E1, K1. cbn [fp_steps gn_left g lrL fp_name sL0 sR1 st_time]. rewrite Rmax_right by lra. reflexivity.
Qed.
(** The state without which a user generates is shown as if given: at rest midway between the feet.  For that reason, and
    though no state was ever given, the next reGenerate takes the left foot as landed when the right one did. *)
Theorem C93_landing_times_refuted : forall spl hspl fspl, exists g d,
  session spl hspl fspl gen_new [KCfg GAddDcm; KFrom lrL lrR 0 (1/2) lrSrt] = Some (g, [Done; Done])
  /\ gn_dcm g = Some d /\ dm_st d = Some (mid (st_pos sL0) (st_pos sR0), vzero)
  /\ forall plan garbage tend mL mR, (forall l r a b, plan l r a b = (l, r, true)) -> exists g', replan plan garbage g 4 tend mL mR CNone = (g', true)
     /\ fp_steps (gn_left g') = [MkStep (st_pos sL0) (st_angle sL0) 4 "left"].
Proof.
  intros spl hspl fspl. pose proof lr_usable as R. destruct lr_run as (out & Gen & _). rewrite Gen in R. set (c := dc_new).
  assert (R2 : run_ok [] lrL lrR 0 (1/2) lrSrt out c) by exact R. clear R. destruct (run_facts _ _ _ _ _ _ _ _ R2) as (o & _ & _ & _ & _ & _ & _ & _ & Ho & _). unfold dcm_of in Ho.
  assert (Ck : gen_checks lrL lrR 0 (1/2) = true).
  { unfold gen_checks. cbn [lrL lrR fp_number fp_steps length fp_name Nat.ltb Nat.leb negb andb String.eqb Ascii.eqb Bool.eqb]. rewrite rleb_f by lra. rewrite rltb_f by (cbn; rewrite Rmax_left; lra). reflexivity. }
  cbn [session perform gn_call gen_new with_dcm attach option_map gn_dcm]. unfold dm_call, dm_new. cbn [dm_cfg]. fold c. unfold generate_from. cbn [with_fps gn_set]. rewrite Ck. cbn [negb]. change gset_new with (settings_after []). rewrite Gen.
  unfold run_cubic. cbn [with_ph gn_cub andthen snd fst]. unfold run_feet. cbn [gn_feet andthen snd fst]. unfold run_zmp. cbn [gn_zmp andthen snd fst]. unfold run_dcm. cbn [gn_dcm gn_set dm_cfg dm_vel]. rewrite Ho. cbn [andthen snd fst with_dcm with_dcmO]. unfold run_com. cbn [gn_com].
  do 2 eexists. split; [reflexivity|]. cbn [gn_dcm]. split; [reflexivity|]. split; [|].
  { unfold dm_start. cbn -[mid]. replace (vadd (V2 0 (1 / 10)) vzero) with (V2 0 (1 / 10)) by (unfold vadd, vzero; cbn [vx vy]; f_equal; lra). replace (vadd (V2 0 (-1 / 10)) vzero) with (V2 0 (-1 / 10)) by (unfold vadd, vzero; cbn [vx vy]; f_equal; lra). reflexivity. }
  intros plan garbage tend mL mR Hp.
  set (g := MkGen _ _ _ _ _ _ _ _ _ _ _ _ _ _). assert (Hr : should_reset garbage g = true).
  { change (Rltb (vnorm vzero) (1 / 100000) = true). apply rltb_t. unfold vnorm. replace (vnorm2 vzero) with 0 by (unfold vnorm2, vzero; cbn; ring). rewrite sqrt_0. lra. }
  assert (P1 : present (gn_left g) 4 sL0) by (exists [], []; repeat split; cbn; try lra; constructor). assert (P2 : present (gn_right g) 4 sR1) by (exists [sR0], []; repeat split; cbn; try lra; constructor).
  destruct (C43_planner_is_asked plan garbage g 4 tend mL mR CNone sL0 sR1 P1 P2) as (l1 & r1 & (tl & tr & Nt & K1 & K2) & Hh); try (cbn; lra); try (cbn; intros; discriminate).
  destruct (Hh _ _ _ (Hp _ _ _ _)) as (g' & E & E1 & E2). exists g'. split; auto. rewrite Hr in Nt. destruct Nt as [-> _]. cbn [corr_left] in K1. unfold kept in K1. rewrite E1, K1. cbn [fp_steps gn_left g lrL fp_name sL0 sR1 st_time]. rewrite Rmax_right by lra. reflexivity.
Qed.
Example C58_example : forall spl hspl fspl w, exists g z out o, session spl hspl fspl gen_new [KCfg GAddZmp; KCfg (GZmp (ZInit w))] = Some (g, [Done; Done])
  /\ gn_zmp g = Some z /\ z_init z = Some w /\ gn_com g = None /\ gn_dcm g = None
  /\ generate_from spl hspl fspl g stepL stepR 0 1 stepSrt = (with_zmpO (Have o) (with_zmp (Some z_new) (with_ph (Have out) (with_fps stepL stepR g))), Done).
Proof.
  intros spl hspl fspl w. set (c := z_call z_new (ZInit w)). destruct (step_zmp spl c) as (out & zo & Gen & _ & _ & _ & Hz). unfold zmp_of in Hz.
  cbn [session perform gn_call gen_new with_zmp attach option_map gn_zmp gn_com]. fold c. do 2 eexists. exists out, zo. split; [reflexivity|]. do 4 (split; [reflexivity|]).
  unfold generate_from. cbn [with_fps gn_set]. rewrite step_checks. cbn [negb]. change gset_new with (settings_after []). rewrite Gen.
  unfold run_cubic. cbn [with_ph gn_cub andthen snd fst]. unfold run_feet. cbn [gn_feet andthen snd fst]. unfold run_zmp. cbn [gn_zmp gn_set]. rewrite Hz. reflexivity.
Qed.
Print Assumptions C58_dcm_state_partial.
Print Assumptions C58_weight_partial.
Print Assumptions C58_velocity_stays.
Print Assumptions C93_state_shown.
Print Assumptions C93_given_decides.
Print Assumptions C93_default_resets.
Print Assumptions C93_landing_times_refuted.
Print Assumptions C93_first_sample_partial.
Print Assumptions C58_dcm_used_partial.
Print Assumptions C58_weight_used_partial.
Print Assumptions C58_failure_refuted.
Print Assumptions C58_stale_velocity_refuted.

(** ** C70 *)
Theorem C70_one_length : forall spl hspl fspl cs g os c g', session spl hspl fspl gen_new cs = Some (g, os) -> is_generation c = true -> perform spl hspl fspl g c = (g', Done) ->
  exists n, all_of_length n g'.
Proof.
  intros spl hspl fspl cs g os c g' Hs Hc H. pose proof (sane_session spl hspl fspl cs gen_new g os sane_new Hs) as S0. destruct c as [e|l r i dT s|p i dT t s|p gb i dT t mL mR k s]; [discriminate| | |]; cbn [perform] in H.
  - eapply from_lengths; eauto.
  - unfold generate in H. destruct (p _ _ _ _) as [[l r] ok]. destruct ok; cbn [negb] in H; [|discriminate]. eapply from_lengths; [|exact H]. apply (sane_eq g); auto; destruct g; auto.
  - unfold regenerate in H. pose proof (replan_keeps p gb g i t mL mR k) as K. destruct (replan _ _ _ _ _ _ _ _) as [g1 [|]]; cbn [negb fst] in *; [|discriminate]. destruct K as (K1 & K2 & K3). eapply from_lengths; [|exact H]. eapply sane_eq; eauto.
Qed.
Example C70_example : forall spl hspl fspl, exists g g', session spl hspl fspl gen_new [KCfg GAddZmp] = Some (g, [Done]) /\ perform spl hspl fspl g (KFrom stepL stepR 0 1 stepSrt) = (g', Done)
  /\ exists o, gn_zmpO g' = Have o /\ length (zo_world o) = 5%nat.
Proof.
  intros spl hspl fspl. destruct (step_zmp spl z_new) as (out & zo & Gen & _ & _ & Pl & Hz). unfold zmp_of in Hz.
  assert (H : exists g', generate_from spl hspl fspl (MkGen gset_new (MkFP [] "left") (MkFP [] "right") None (Some z_new) None None Never Never Never Never Never None Never) stepL stepR 0 1 stepSrt = (g', Done) /\ gn_ph g' = Have out /\ gn_zmpO g' = Have zo /\ gn_zmp g' <> None).
  { eexists. unfold generate_from. cbn [with_fps gn_set]. rewrite step_checks. cbn [negb]. change gset_new with (settings_after []). rewrite Gen.
    unfold run_cubic. cbn [with_ph gn_cub andthen snd fst]. unfold run_feet. cbn [gn_feet andthen snd fst]. unfold run_zmp. cbn [gn_zmp gn_set]. rewrite Hz. split; [reflexivity|]. repeat split. discriminate. }
  destruct H as (g' & H & H1 & H2 & H3). eexists. exists g'. split; [reflexivity|]. split; [exact H|]. exists zo. split; auto.
  destruct (C70_one_length spl hspl fspl [KCfg GAddZmp] _ _ (KFrom stepL stepR 0 1 stepSrt) g' eq_refl eq_refl H) as (n & (out' & O1 & O2 & _) & _ & _ & Z & _). destruct (Z H3) as (o & Z1 & _ & _ & _ & _ & Z2).
  assert (out' = out) by congruence. subst out'. assert (o = zo) by congruence. subst o. rewrite Z2, <- O2, Pl. reflexivity.
Qed.
Print Assumptions C70_one_length.

(** ** C71 *)
Definition attaches (c : call) : Prop := c = KCfg GAddCub \/ c = KCfg GAddFeet \/ c = KCfg GAddZmp \/ c = KCfg GAddDcm \/ c = KCfg GAddCom.
(** As long as no generation has failed and the plug-ins were attached before the first generation, the getters describe
    one walk.  Missing: after a failed generation, where it is false (below). *)
Theorem C71_no_failure_partial : forall spl hspl fspl pre cs g os, session spl hspl fspl gen_new (pre ++ cs) = Some (g, os) ->
  Forall (fun c => is_generation c = false) pre -> Forall (fun c => ~ attaches c) cs -> Forall (fun o => o = Done) os ->
  gn_ph g = Never \/ exists n, all_of_length n g.
Proof.
  intros spl hspl fspl pre cs g os H Hp Hc Ho.
  assert (Gen : forall cs g0 g os, sane g0 -> (gn_ph g0 = Never \/ exists n, all_of_length n g0) -> session spl hspl fspl g0 cs = Some (g, os) ->
    Forall (fun c => ~ attaches c) cs -> Forall (fun o => o = Done) os -> gn_ph g = Never \/ exists n, all_of_length n g).
  { clear. induction cs as [|c r IH]; intros g0 g os S0 I H Hc Ho; cbn [session] in H; [injection H as <- <-; auto|].
    inversion Hc as [|? ? Hc1 Hc2]; subst. pose proof (sane_perform spl hspl fspl g0 c S0) as S1. destruct (perform spl hspl fspl g0 c) as [g1 o] eqn:E. cbn [fst] in S1.
    destruct (match o with Undefined => None | _ => match session spl hspl fspl g1 r with Some (h, os) => Some (h, o :: os) | None => None end end) as [[h os']|] eqn:E2; [|destruct o; discriminate].
    assert (o = Done /\ exists os1, session spl hspl fspl g1 r = Some (g, os1) /\ os = o :: os1) as (-> & os1 & E3 & ->).
    { destruct (session spl hspl fspl g1 r) as [[h1 os1]|]; [|destruct o; discriminate]. assert (os = o :: os1 /\ h1 = g) by (destruct o; try discriminate; injection E2 as -> ->; injection H as -> ->; auto). destruct H0 as [-> ->]. inversion Ho; subst. eauto. }
    inversion Ho as [|? ? _ Ho2]; subst. apply (IH g1 g os1); auto. destruct c as [e|l r0 i dT s|p i dT t s|p gb i dT t mL mR k s].
    - cbn [perform] in E. injection E as <-. destruct g0 as [h1 h2 h3 h4 h5 h6 h7 h8 h9 h10 h11 h12 h13 h14].
      assert (Q : forall g', gn_cubO g' = h14 -> (gn_cub g' <> None -> h13 <> None) -> gn_ph g' = h8 -> gn_feetO g' = h9 -> gn_zmpO g' = h10 -> gn_dcmO g' = h11 -> gn_comO g' = h12 -> (gn_feet g' <> None -> h4 <> None) -> (gn_zmp g' <> None -> h5 <> None) -> (gn_dcm g' <> None -> h6 <> None) -> (gn_com g' <> None -> h7 <> None) ->
        gn_ph g' = Never \/ exists n, all_of_length n g').
      { intros g' Qa Qb Q1 Q2 Q3 Q4 Q5 Q6 Q7 Q8 Q9. destruct I as [I|(n & I1 & I2 & I6 & I3 & I4 & I5)]; [left; cbn in I; congruence|right]. cbn in I1, I2, I3, I4, I5, I6. exists n. unfold all_of_length. rewrite Qa, Q1, Q2, Q3, Q4, Q5. repeat split; auto. }
      unfold attaches in Hc1. destruct e; try (exfalso; apply Hc1; tauto); apply Q; try reflexivity; cbn; auto; destruct h4, h5, h6, h7, h13; cbn; auto; discriminate.
    - right. cbn [perform] in E. eapply from_lengths; [exact S0|exact E].
    - right. cbn [perform] in E. unfold generate in E. destruct (p _ _ _ _) as [[l r1] ok]. destruct ok; cbn [negb] in E; [|discriminate]. eapply from_lengths; [|exact E]. apply (sane_eq g0); auto; destruct g0; auto.
    - right. cbn [perform] in E. unfold regenerate in E. pose proof (replan_keeps p gb g0 i t mL mR k) as K. destruct (replan _ _ _ _ _ _ _ _) as [g2 [|]]; cbn [negb fst] in *; [|discriminate]. destruct K as (K1 & K2 & K3). eapply from_lengths; [|exact E]. apply (sane_eq g0); auto. }
  assert (Pre : forall pre g0 g os, sane g0 -> gn_ph g0 = Never -> session spl hspl fspl g0 (pre ++ cs) = Some (g, os) -> Forall (fun c => is_generation c = false) pre -> Forall (fun o => o = Done) os ->
    gn_ph g = Never \/ exists n, all_of_length n g).
  { clear - Gen Hc. induction pre as [|c r IH]; intros g0 g os S0 N0 H Hp Ho; cbn [app] in H; [eapply Gen; eauto|]. inversion Hp as [|? ? Hp1 Hp2]; subst. destruct c as [e| | |]; try discriminate. cbn [session perform] in H.
    destruct (session spl hspl fspl (gn_call g0 e) (r ++ cs)) as [[h os1]|] eqn:E; [|discriminate]. injection H as <- <-. inversion Ho; subst. apply (IH (gn_call g0 e) h os1); auto; [apply sane_call; auto|]. destruct g0; cbn in *; destruct e; cbn; auto. }
  apply (Pre pre gen_new g os); auto. apply sane_new.
Qed.
Example C71_example : forall spl hspl fspl, exists g, session spl hspl fspl gen_new ([KCfg GAddZmp] ++ [KFrom stepL stepR 0 1 stepSrt; KCfg (GSet GoDisablePause)]) = Some (g, [Done; Done; Done])
  /\ Forall (fun c => is_generation c = false) [KCfg GAddZmp] /\ Forall (fun c => ~ attaches c) [KFrom stepL stepR 0 1 stepSrt; KCfg (GSet GoDisablePause)] /\ gn_ph g <> Never.
Proof.
  intros spl hspl fspl. destruct (C70_example spl hspl fspl) as (g & g' & H1 & H2 & _). cbn [app session]. cbn [session] in H1. destruct (perform spl hspl fspl gen_new (KCfg GAddZmp)) as [g0 o] eqn:E0. cbn [perform] in E0. injection E0 as <- <-. injection H1 as <-. rewrite H2. cbn [perform].
  eexists. split; [reflexivity|]. split; [repeat constructor|]. split; [repeat constructor; unfold attaches; intuition discriminate|].
  assert (Q : forall s, gn_ph (gn_call g' s) = gn_ph g') by (intros s; destruct g'; destruct s; reflexivity). rewrite Q. cbn [perform] in H2. destruct (from_done _ _ _ _ _ _ _ _ _ _ H2) as (out & _ & -> & _). discriminate.
Qed.
Print Assumptions C71_no_failure_partial.
(** After a generation that returns false the getters describe different walks: the contact states have ten instants and
    come from the new foot prints, the ZMP has five and comes from the old ones. *)
Theorem C71_after_failure_refuted : forall spl hspl fspl, exists g out zo,
  session spl hspl fspl gen_new [KCfg GAddZmp; KFrom stepL stepR 0 1 stepSrt; KCfg GAddFeet; KFrom lrL lrR 0 (1/2) lrSrt] = Some (g, [Done; Done; Done; Refused])
  /\ gn_ph g = Have out /\ length (ph_left (go_ph out)) = 10%nat /\ gn_zmpO g = Have zo /\ length (zo_world zo) = 5%nat.
Proof.
  intros spl hspl fspl. destruct (step_zmp spl z_new) as (out & zo & Gen & _ & _ & Pl & Hz). unfold zmp_of in Hz. destruct lr_run as (out2 & Gen2 & _ & _ & Pl2).
  assert (Ck : gen_checks lrL lrR 0 (1/2) = true).
  { unfold gen_checks. cbn [lrL lrR fp_number fp_steps length fp_name Nat.ltb Nat.leb negb andb String.eqb Ascii.eqb Bool.eqb]. rewrite rleb_f by lra. rewrite rltb_f by (cbn; rewrite Rmax_left; lra). reflexivity. }
  set (gz := MkGen gset_new (MkFP [] "left") (MkFP [] "right") None (Some z_new) None None Never Never Never Never Never None Never).
  set (g1 := with_zmpO (Have zo) (with_zmp (Some z_new) (with_ph (Have out) (with_fps stepL stepR gz)))).
  assert (H1 : generate_from spl hspl fspl gz stepL stepR 0 1 stepSrt = (g1, Done)).
  { unfold generate_from, gz. cbn [with_fps gn_set]. rewrite step_checks. cbn [negb]. change gset_new with (settings_after []) at 1. rewrite Gen.
    unfold run_cubic. cbn [with_ph gn_cub andthen snd fst]. unfold run_feet. cbn [gn_feet andthen snd fst]. unfold run_zmp. cbn [gn_zmp gn_set]. change gset_new with (settings_after []). rewrite Hz. reflexivity. }
  assert (L5 : length (zo_world zo) = 5%nat).
  { destruct (C70_one_length spl hspl fspl [KCfg GAddZmp] gz [Done] (KFrom stepL stepR 0 1 stepSrt) g1 eq_refl eq_refl H1) as (n & (out' & O1 & O2 & _) & _ & _ & Z & _). destruct (Z ltac:(discriminate)) as (o & Z1 & _ & _ & _ & _ & Z2).
    assert (out' = out) by (cbn in O1; congruence). subst out'. assert (o = zo) by (cbn in Z1; congruence). subst o. rewrite Z2, <- O2, Pl. reflexivity. }
  cbn [session perform gn_call gen_new with_zmp attach gn_zmp]. fold gz. rewrite H1. unfold g1, gz. cbn [with_fps with_ph with_zmp with_zmpO with_feet attach gn_feet].
  unfold generate_from. cbn [with_fps gn_set]. rewrite Ck. cbn [negb]. change gset_new with (settings_after []). rewrite Gen2. unfold run_cubic. cbn [with_ph gn_cub andthen snd fst]. unfold run_feet. cbn [gn_feet].
  unfold feet_compute, interpolate_foot, feet_new. cbn [f_height]. rewrite rltb_t by lra. cbn [rbind andthen snd fst with_feetO]. do 3 eexists. split; [reflexivity|]. cbn [gn_ph gn_zmpO]. split; [reflexivity|]. rewrite Pl2. split; [reflexivity|]. split; [reflexivity|exact L5].
Qed.
Print Assumptions C71_after_failure_refuted.
