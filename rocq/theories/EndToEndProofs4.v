(** Sessions of a user who plans and re-plans. *)
From Coq Require Import String Reals Lra Lia ZArith List Bool Sorted.
From Verif Require Import Prelude EvalTac FootPrint FootPrintSpec UnicycleFoot PlannerSearch PlannerSpec Planner Properties_Planner
  GenPhases GenSpec GenProofs2 Properties_Generator FeetTraj ZMP ZMPSpec CoMHeight CoMHeightSpec DCM Generator GeneratorSpec GeneratorProofs
  PlannerProofs PlannerProofs3 PlannerProofs6 EndToEndSpec EndToEndProofs EndToEndProofs2 EndToEndProofs3 AgreeSpec AgreeProofs.
Import ListNotations.
Open Scope R_scope.
Notation Forall := List.Forall.

(** ** What a planning call gives *)
Lemma lead_exists : forall c init ls rs, exists lead, guaranteed_lead c init ls rs lead.
Proof.
  intros c init ls rs. destruct ls as [|a ls]; [exists (pl_nomT c); cbn; lra|]. destruct rs as [|b rs]; [exists (pl_nomT c); cbn; lra|].
  exists (Rmin (pl_nomT c) (pl_minT c - (init - Rmax (st_time a) (st_time b)))). cbn. split; [apply Rmin_l|]. intros _. apply Rmin_r.
Qed.
Definition lr_named (l r : footprint) : Prop := named l /\ named r /\ fp_name l = "left"%string /\ fp_name r = "right"%string.
Lemma working_plans : forall c e plan l r init tend, working c e -> plans c e plan -> 0 <= init < tend -> lr_named l r ->
  nonneg_times (fp_steps l) -> nonneg_times (fp_steps r) -> fresh (fp_steps l) (fp_steps r) -> last_before init (fp_steps l) -> last_before init (fp_steps r) ->
  exists l2 r2, plan l r init tend = (l2, r2, true) /\ lr_named l2 r2 /\ nonneg_times (fp_steps l2) /\ nonneg_times (fp_steps r2)
  /\ walk (fp_steps l2) (fp_steps r2) init 0 (pl_minT c)
  /\ forall lead, guaranteed_lead c init (fp_steps l) (fp_steps r) lead -> walk (fp_steps l2) (fp_steps r2) init lead (pl_minT c).
Proof.
  intros c e plan l r init tend [(ops & Ec) W1 W2 W3 W4 W5 W6 W7 W8] Pl Ht (N1 & N2 & N3 & N4) Tl Tr Fr Bl Br.
  assert (G : good_cfg c) by (rewrite Ec; apply history_good).
  assert (Cn : can_plan c e init tend (fp_steps l) (fp_steps r)).
  { constructor; auto; try lra. destruct Fr as [[E1 E2]|(a & b & E1 & E2)]; [left; auto|right]. rewrite E1, E2 in *. repeat split; auto; discriminate. }
  destruct (Pl l r init tend Tl Tr) as [(fuel & lf & rf & sw & sl & Hc & E)|[Hn _]].
  2:{ exfalso. destruct (plan_succeeds c e init tend l r G W1 W7 Cn) as (fuel & lf & rf & sw & sl & E). exact (Hn _ _ _ _ _ E). }
  exists (ft_fp lf), (ft_fp rf). split; [exact E|].
  destruct (plan_named _ _ _ _ _ _ _ _ _ _ _ N1 N2 Hc) as [M1 M2].
  pose proof (fun lead Hl => plan_walk c e fuel l r init tend lf rf sw sl lead G W2 Tl Tr Fr Hl W1 Hc) as PW.
  destruct (lead_exists c init (fp_steps l) (fp_steps r)) as (lead0 & L0). destruct (PW lead0 L0) as (A1 & A2 & A3 & _ & A4 & A5).
  split; [repeat split; auto; congruence|]. split; auto. split; auto. split; [eapply walk_weaken; [exact A3|apply Rmax_l]|].
  intros lead Hl. apply (PW lead Hl).
Qed.

Lemma working_turns : forall c e plan l r init tend l2 r2, working c e -> plans c e plan ->
  nonneg_times (fp_steps l) -> nonneg_times (fp_steps r) -> fresh (fp_steps l) (fp_steps r) -> plan l r init tend = (l2, r2, true) -> in_turns (fp_steps l2) (fp_steps r2).
Proof.
  intros c e plan l r init tend l2 r2 [(ops & Ec) W1 W2 _ _ _ _ _ _] Pl Tl Tr Fr E. assert (G : good_cfg c) by (rewrite Ec; apply history_good).
  destruct (Pl l r init tend Tl Tr) as [(fuel & lf & rf & sw & sl & Hc & E')|[_ E']]; rewrite E in E'; [|discriminate]. injection E' as -> ->.
  exact (plan_turns _ _ _ _ _ _ _ _ _ _ _ G W2 Tl Tr Fr Hc).
Qed.

(** ** The invariant *)
Lemma present_exists : forall fp t, (exists s, In s (fp_steps fp) /\ st_time s <= t) -> exists p, present fp t p.
Proof.
  intros fp t (s & Hs & Ht). unfold present. destruct (find (fun a => Rleb (st_time a) t) (rev (fp_steps fp))) as [p|] eqn:E.
  - exists p. exact (find_present _ _ _ E).
  - exfalso. pose proof (find_none _ _ E s (proj1 (in_rev _ _) Hs)) as Q. cbn in Q. apply Rleb_false in Q. lra.
Qed.
Lemma present_in : forall fp t p, present fp t p -> In p (fp_steps fp).
Proof. intros fp t p (pre & post & E & _). rewrite E. apply in_or_app. right. left. reflexivity. Qed.
Definition landed (t : R) (fp : footprint) : Prop := nonneg_times (fp_steps fp) /\ exists s, In s (fp_steps fp) /\ st_time s <= t.
Definition live (last : option R) (g : gen) : Prop :=
  sound g /\ lr_named (gn_left g) (gn_right g)
  /\ match last with
     | None => fp_steps (gn_left g) = [] /\ fp_steps (gn_right g) = []
     | Some t => 0 <= t /\ landed t (gn_left g) /\ landed t (gn_right g)
     end.
Lemma live_new : live None gen_new.
Proof.
  split; [split; [exact sane_new|discriminate]|]. split; [|split; reflexivity]. repeat split; intros s [].
Qed.
Lemma sound_call : forall g ev, sound g -> sound (gn_call g ev).
Proof.
  intros g ev [A B]. split; [apply sane_call; exact A|]. destruct g as [s l r f z d h a b c e i]. destruct ev; cbn in *; auto.
  - destruct h as [h|]; [exact B|]. cbn. intros c0 E. injection E as <-. exists []. reflexivity.
  - destruct h as [h|]; [|discriminate]. cbn. intros c0 E. injection E as <-. destruct (B h eq_refl) as (hops & ->). exists (hops ++ [(nom, delta)]). unfold h_history. rewrite fold_left_app. reflexivity.
Qed.
Lemma live_call : forall last g ev, live last g -> live last (gn_call g ev).
Proof.
  intros last g ev (A & B & C). assert (E : gn_left (gn_call g ev) = gn_left g /\ gn_right (gn_call g ev) = gn_right g) by (destruct g, ev; split; reflexivity).
  destruct E as [E1 E2]. split; [apply sound_call; exact A|]. rewrite E1, E2. split; auto.
Qed.

(** The planner and the measurements do not touch settings and plug-ins, except the steps before the correction given to the ZMP plug-in. *)
Definition alike (g g' : gen) : Prop :=
  gn_set g' = gn_set g /\ gn_feet g' = gn_feet g /\ gn_cub g' = gn_cub g /\ gn_dcm g' = gn_dcm g /\ gn_com g' = gn_com g /\ (gn_zmp g = None -> gn_zmp g' = None).
Lemma alike_fps : forall g l r, alike g (with_fps l r g).
Proof. intros [] l r. repeat split; auto. Qed.
Lemma alike_replan : forall plan gb g i t mL mR k, alike g (fst (replan plan gb g i t mL mR k)).
Proof.
  intros plan gb g i t mL mR k. unfold replan.
  destruct (fp_keepPresent i (gn_left g)) as [l [|]]; cbn [negb fst]; [|apply alike_fps]. destruct (fp_keepPresent i (gn_right g)) as [r [|]]; cbn [negb fst]; [|apply alike_fps].
  destruct (fp_getLast l); [|apply alike_fps]. destruct (fp_getLast r); [|apply alike_fps]. destruct (edited _ _ _ _ _ _ _) as [el er].
  destruct (if _ && (corr_left k || _) then _ else _) as [l1 [|]]; cbn [negb fst]; [|apply alike_fps].
  destruct (if _ && (corr_right k || _) then _ else _) as [r1 [|]]; cbn [negb fst]; [|apply alike_fps].
  destruct (plan l1 r1 i t) as [[l2 r2] [|]]; cbn [negb fst]; [|apply alike_fps].
  match goal with |- alike _ (if ?b then _ else _) => destruct b end; [|apply alike_fps].
  destruct g as [s' l' r' f z d h a b c e' i']. repeat split; auto. cbn. intros ->. reflexivity.
Qed.
Lemma replan_plain : forall plan gb g i t mL mR, should_reset gb g = false -> gn_zmp (fst (replan plan gb g i t mL mR CNone)) = gn_zmp g.
Proof.
  intros plan gb g i t mL mR Hr. unfold replan. rewrite Hr.
  destruct (fp_keepPresent i (gn_left g)) as [l [|]]; cbn [negb fst]; [|destruct g; reflexivity]. destruct (fp_keepPresent i (gn_right g)) as [r [|]]; cbn [negb fst]; [|destruct g; reflexivity].
  destruct (fp_getLast l); [|destruct g; reflexivity]. destruct (fp_getLast r); [|destruct g; reflexivity]. destruct (edited _ _ _ _ _ _ _) as [el er]. cbn [andb negb fst].
  destruct (plan l r i t) as [[l2 r2] [|]]; destruct g; reflexivity.
Qed.
Lemma alike_suits : forall g g' dT lead gap, alike g g' -> suits dT lead gap g -> suits dT lead gap g'.
Proof.
  intros g g' dT lead gap (E1 & E2 & E6 & E3 & E4 & E5) (S1 & S2 & S3 & S4). unfold suits. rewrite E1. split; auto. split; auto. split; auto.
  destruct S4 as [(B0 & B1 & B2 & B3 & B4)|[F [P1 P0 P2 P3]]]; [left; repeat split; try congruence; auto|right]. split; auto. split; rewrite ?E1, ?E2, ?E3, ?E4, ?E6; auto.
Qed.
Lemma alike_sound : forall g g', alike g g' -> sound g -> sound g'.
Proof. intros g g' (E1 & E2 & E6 & E3 & E4 & E5) [A B]. split; [eapply sane_eq; eauto|]. rewrite E4. exact B. Qed.

Section Sessions.
Variable spl : R -> R -> R -> R -> R -> R -> pva.
Variable hspl : R -> R -> R -> R -> pva.
Variable fspl : swing_splines.
Hypothesis Hspl : forall T a m, 0 < T -> clamped T a m (hspl T a m).

Lemma walk_landed : forall l r init lead gap, walk (fp_steps l) (fp_steps r) init lead gap -> nonneg_times (fp_steps l) -> nonneg_times (fp_steps r) -> landed init l /\ landed init r.
Proof.
  intros l r init lead gap W Nl Nr. destruct W as [_ _ W1 W2 W3 _ _]. split; split; auto.
  - destruct (fp_steps l) as [|x xs]; [congruence|]. exists x. split; [left; auto|exact (W3 true x eq_refl)].
  - destruct (fp_steps r) as [|x xs]; [congruence|]. exists x. split; [left; auto|exact (W3 false x eq_refl)].
Qed.
(** After a plan, the trajectories. *)
Lemma from_live : forall g l r init dT srt lead gap, sound g -> 0 <= init -> lr_named l r -> nonneg_times (fp_steps l) -> nonneg_times (fp_steps r) ->
  walk (fp_steps l) (fp_steps r) init 0 gap -> (bare g \/ walk (fp_steps l) (fp_steps r) init lead gap) -> suits dT lead gap g -> sort_result (fp_steps l) (fp_steps r) srt ->
  exists g', generate_from spl hspl fspl g l r init dT srt = (g', Done) /\ live (Some init) g'.
Proof.
  intros g l r init dT srt lead gap So Hi (N1 & N2 & N3 & N4) Tl Tr W0 W Su Hs.
  assert (Fn : feet_named g l r). { split; auto. split; auto. rewrite N3, N4. split; [discriminate|auto]. }
  assert (D : snd (generate_from spl hspl fspl g l r init dT srt) = Done).
  { destruct W as [B|W]; [|eapply from_succeeds; eauto]. eapply from_succeeds with (lead := 0); eauto. destruct Su as (S1 & S2 & S3 & _). repeat split; auto. }
  destruct (from_keeps spl hspl fspl g l r init dT srt) as (K1 & K2 & K3 & K4 & K5 & K6). destruct (generate_from spl hspl fspl g l r init dT srt) as [g' o]. cbn [fst snd] in *. subst o.
  exists g'. split; [reflexivity|]. destruct So as [S1 S2]. split; [split; [eapply sane_eq; eauto|rewrite K5; exact S2]|]. rewrite K3, K4. split; [repeat split; auto|]. split; auto. eapply walk_landed; eauto.
Qed.

(** What the planner hands to the generator in the state [g]: the state [ga] in which the trajectories are computed, and the foot prints. *)
Definition ready (g ga : gen) (l r : footprint) (init dT : R) (srt : list tstep) (lead gap : R) : Prop :=
  alike g ga /\ sound ga /\ lr_named l r /\ nonneg_times (fp_steps l) /\ nonneg_times (fp_steps r) /\ in_turns (fp_steps l) (fp_steps r)
  /\ walk (fp_steps l) (fp_steps r) init 0 gap /\ (bare ga \/ walk (fp_steps l) (fp_steps r) init lead gap) /\ suits dT lead gap ga /\ sort_result (fp_steps l) (fp_steps r) srt.
Lemma ready_live : forall g ga l r init dT srt lead gap, 0 <= init -> ready g ga l r init dT srt lead gap ->
  exists g', generate_from spl hspl fspl ga l r init dT srt = (g', Done) /\ live (Some init) g'.
Proof. intros g ga l r init dT srt lead gap Hi (_ & A & B & C & D & _ & E & F & G & H). eapply from_live; eauto. Qed.

Lemma generate_ready : forall g c e plan init dT tend srt, live None g -> working c e -> plans c e plan -> 0 <= init < tend ->
  suits dT (pl_nomT c) (pl_minT c) g ->
  (forall l r, plan (gn_left g) (gn_right g) init tend = (l, r, true) -> sort_result (fp_steps l) (fp_steps r) srt) ->
  exists l r, let ga := with_fps l r g in generate spl hspl fspl plan g init dT tend srt = generate_from spl hspl fspl ga l r init dT srt
  /\ gn_zmp ga = gn_zmp g /\ ready g ga l r init dT srt (pl_nomT c) (pl_minT c).
Proof.
  intros g c e plan init dT tend srt (So & Nm & E1 & E2) Wk Pl Ht Su Hs.
  destruct (working_plans c e plan (gn_left g) (gn_right g) init tend Wk Pl Ht Nm) as (l2 & r2 & E & M & T1 & T2 & W0 & W).
  { rewrite E1. constructor. } { rewrite E2. constructor. } { left; auto. } { rewrite E1. discriminate. } { rewrite E2. discriminate. }
  exists l2, r2. cbv zeta. unfold generate. rewrite E. cbn [negb]. split; [reflexivity|]. split; [destruct g; reflexivity|].
  split; [apply alike_fps|]. split; [eapply alike_sound; [apply alike_fps|exact So]|]. split; auto. split; auto. split; auto.
  split; [eapply working_turns; [exact Wk|exact Pl| | | |exact E]; [rewrite E1; constructor|rewrite E2; constructor|left; auto]|]. split; auto.
  split; [right; apply W; rewrite E1; cbn; lra|]. split; auto. eapply alike_suits; [apply alike_fps|exact Su].
Qed.
Lemma generate_live : forall g c e plan init dT tend srt, live None g -> working c e -> plans c e plan -> 0 <= init < tend ->
  suits dT (pl_nomT c) (pl_minT c) g ->
  (forall l r, plan (gn_left g) (gn_right g) init tend = (l, r, true) -> sort_result (fp_steps l) (fp_steps r) srt) ->
  exists g', generate spl hspl fspl plan g init dT tend srt = (g', Done) /\ live (Some init) g'.
Proof.
  intros g c e plan init dT tend srt L Wk Pl Ht Su Hs. destruct (generate_ready g c e plan init dT tend srt L Wk Pl Ht Su Hs) as (l & r & E & _ & Rd). rewrite E. eapply ready_live; eauto. lra.
Qed.

Lemma regenerate_ready : forall last g c e plan garbage init dT tend mL mR k srt lead, live (Some last) g -> working c e -> plans c e plan -> last <= init < tend ->
  (corr_left k = true -> 0 <= st_time mL) -> (corr_right k = true -> 0 <= st_time mR) ->
  suits dT lead (pl_minT c) g ->
  (forall pl pr l1 r1, present (gn_left g) init pl -> present (gn_right g) init pr ->
     handed g init mL mR k (should_reset garbage g) pl pr l1 r1 -> bare g \/ guaranteed_lead c init (fp_steps l1) (fp_steps r1) lead) ->
  (forall g', replan plan garbage g init tend mL mR k = (g', true) -> sort_result (fp_steps (gn_left g')) (fp_steps (gn_right g')) srt) ->
  exists ga, ga = fst (replan plan garbage g init tend mL mR k) /\ regenerate spl hspl fspl plan garbage g init dT tend mL mR k srt = generate_from spl hspl fspl ga (gn_left ga) (gn_right ga) init dT srt
  /\ ready g ga (gn_left ga) (gn_right ga) init dT srt lead (pl_minT c).
Proof.
  intros last g c e plan garbage init dT tend mL mR k srt lead (So & Nm & Hl & [L1 L2] & [Q1 Q2]) Wk Pl Ht M1 M2 Su Ld Hs.
  assert (Ex : forall fp, (exists s, In s (fp_steps fp) /\ st_time s <= last) -> exists p, present fp init p).
  { intros fp (s & I & T). apply present_exists. exists s. split; [auto|lra]. }
  destruct (Ex _ L2) as (pl & P1). destruct (Ex _ Q2) as (pr & P2).
  assert (T1 : 0 <= st_time pl) by (apply (proj1 (Forall_forall _ _) L1); eapply present_in; eauto).
  assert (T2 : 0 <= st_time pr) by (apply (proj1 (Forall_forall _ _) Q1); eapply present_in; eauto).
  destruct (replan_handed plan garbage g init tend mL mR k pl pr P1 P2 T1 T2 M1 M2) as (l1 & r1 & Hd & Hp).
  pose proof (Ld pl pr l1 r1 P1 P2 Hd) as Ld'. clear Ld.
  assert (One : exists sl sr, l1 = MkFP [sl] (fp_name (gn_left g)) /\ r1 = MkFP [sr] (fp_name (gn_right g)) /\ st_name sl = fp_name (gn_left g) /\ st_name sr = fp_name (gn_right g)
    /\ 0 <= st_time sl <= init /\ 0 <= st_time sr <= init).
  { destruct Hd as (tl & tr & Nt & K1 & K2). destruct (new_times_bounds init mL mR k _ _ _ _ _ Nt) as [B1 B2].
    destruct P1 as (? & ? & _ & U1 & _), P2 as (? & ? & _ & U2 & _). destruct (B1 U1 U2) as [B3 B4]. destruct (B2 T1 T2 M1 M2) as [B5 B6].
    destruct (corr_left k); [destruct K1 as (a & -> & _)|rewrite K1]; (destruct (corr_right k); [destruct K2 as (b & -> & _)|rewrite K2]); do 2 eexists; repeat split; cbn; auto. }
  destruct One as (sl & sr & -> & -> & S1 & S2 & B1 & B2). destruct Nm as (_ & _ & N3 & N4).
  destruct (working_plans c e plan (MkFP [sl] (fp_name (gn_left g))) (MkFP [sr] (fp_name (gn_right g))) init tend Wk Pl) as (l2 & r2 & E & M & T3 & T4 & W0 & W); cbn [fp_steps]; try lra.
  { repeat split; auto; intros s [<-|[]]; auto. } { constructor; [lra|constructor]. } { constructor; [lra|constructor]. } { right; eauto. } { intros s [= <-]. lra. } { intros s [= <-]. lra. }
  destruct (Hp l2 r2 true E) as (g1 & Er & G1 & G2). unfold regenerate. rewrite Er. cbn [negb]. pose proof (alike_replan plan garbage g init tend mL mR k) as Al. rewrite Er in Al. cbn [fst] in Al.
  specialize (Hs g1 Er). exists g1. split; [reflexivity|]. split; [reflexivity|]. rewrite G1, G2 in *.
  split; [exact Al|]. split; [eapply alike_sound; eauto|]. split; auto. split; auto. split; auto.
  split; [eapply working_turns; [exact Wk|exact Pl| | | |exact E]; cbn [fp_steps]; [constructor; [lra|constructor]|constructor; [lra|constructor]|right; eauto]|].
  split; auto. split; [|split; auto; eapply alike_suits; eauto].
  destruct Ld' as [B|Ld']; [left|right; apply W; exact Ld']. destruct B as (A0 & A1 & A2 & A3 & A4), Al as (E1 & E2 & E6 & E3 & E4 & E5). repeat split; try congruence; auto.
Qed.
Lemma regenerate_live : forall last g c e plan garbage init dT tend mL mR k srt lead, live (Some last) g -> working c e -> plans c e plan -> last <= init < tend ->
  (corr_left k = true -> 0 <= st_time mL) -> (corr_right k = true -> 0 <= st_time mR) ->
  suits dT lead (pl_minT c) g ->
  (forall pl pr l1 r1, present (gn_left g) init pl -> present (gn_right g) init pr ->
     handed g init mL mR k (should_reset garbage g) pl pr l1 r1 -> bare g \/ guaranteed_lead c init (fp_steps l1) (fp_steps r1) lead) ->
  (forall g', replan plan garbage g init tend mL mR k = (g', true) -> sort_result (fp_steps (gn_left g')) (fp_steps (gn_right g')) srt) ->
  exists g', regenerate spl hspl fspl plan garbage g init dT tend mL mR k srt = (g', Done) /\ live (Some init) g'.
Proof.
  intros last g c e plan garbage init dT tend mL mR k srt lead L Wk Pl Ht M1 M2 Su Ld Hs.
  destruct (regenerate_ready last g c e plan garbage init dT tend mL mR k srt lead L Wk Pl Ht M1 M2 Su Ld Hs) as (ga & _ & E & Rd). rewrite E. eapply ready_live; eauto. destruct L as (_ & _ & L & _). lra.
Qed.

Lemma session_live : forall last g cs, well_used spl hspl fspl last g cs -> live last g ->
  exists g' os, session spl hspl fspl g cs = Some (g', os) /\ Forall (fun o => o = Done) os.
Proof.
  intros last g cs H. induction H; intros L.
  - exists g, []. split; [reflexivity|constructor].
  - destruct IHwell_used as (g' & os & E & F); [apply live_call; exact L|]. exists g', (Done :: os). cbn [session perform]. rewrite E. split; [reflexivity|constructor; auto].
  - destruct (generate_live g c e plan init dT tend srt L H H0 H1 H2 H3) as (g1 & E1 & L1). cbn [perform] in *. rewrite E1 in IHwell_used. destruct (IHwell_used L1) as (g' & os & E & F).
    exists g', (Done :: os). cbn [session perform]. rewrite E1. cbn [fst] in E. rewrite E. split; [reflexivity|constructor; auto].
  - destruct (regenerate_live last g c e plan garbage init dT tend mL mR k srt lead L H H0 H1 H2 H3 H4 H5 H6) as (g1 & E1 & L1). cbn [perform] in *. rewrite E1 in IHwell_used. destruct (IHwell_used L1) as (g' & os & E & F).
    exists g', (Done :: os). cbn [session perform]. rewrite E1. cbn [fst] in E. rewrite E. split; [reflexivity|constructor; auto].
Qed.
(** The last call of a session. *)
Lemma session_last : forall cs last g call g1 os, well_used spl hspl fspl last g (cs ++ [call]) -> live last g -> session spl hspl fspl g cs = Some (g1, os) ->
  exists last', live last' g1 /\ well_used spl hspl fspl last' g1 [call].
Proof.
  induction cs as [|c0 cs IH]; intros last g call g1 os W L H.
  - cbn in H. injection H as <- _. exists last. split; auto.
  - cbn [app] in W. inversion W; subst.
    + cbn [session perform] in H. destruct (session spl hspl fspl (gn_call g ev) cs) as [[g2 os2]|] eqn:E; [|discriminate]. injection H as <- _. apply (IH last (gn_call g ev) call g2 os2); auto. apply live_call; exact L.
    + destruct (generate_live g c e plan init dT tend srt L ltac:(assumption) ltac:(assumption) ltac:(assumption) ltac:(assumption) ltac:(assumption)) as (g3 & E1 & L1).
      cbn [session perform] in *. rewrite E1 in *. cbn [fst] in *. destruct (session spl hspl fspl g3 cs) as [[g2 os2]|] eqn:E; [|discriminate]. injection H as <- _. eapply IH; eauto.
    + destruct (regenerate_live last0 g c e plan garbage init dT tend mL mR k srt lead L ltac:(assumption) ltac:(assumption) ltac:(assumption) ltac:(assumption) ltac:(assumption) ltac:(assumption) ltac:(assumption) ltac:(assumption)) as (g3 & E1 & L1).
      cbn [session perform] in *. rewrite E1 in *. cbn [fst] in *. destruct (session spl hspl fspl g3 cs) as [[g2 os2]|] eqn:E; [|discriminate]. injection H as <- _. eapply IH; eauto.
Qed.
(** A successful generation is one on what the planner handed over. *)
Lemma call_ready : forall last g call, live last g -> well_used spl hspl fspl last g [call] -> is_generation call = true ->
  exists ga l r init dT srt lead gap, 0 <= init /\ perform spl hspl fspl g call = generate_from spl hspl fspl ga l r init dT srt /\ ready g ga l r init dT srt lead gap
  /\ (uncorrected g call -> gn_zmp ga = gn_zmp g).
Proof.
  intros last g call L W G. inversion W; subst; [discriminate| |].
  - destruct (generate_ready g c e plan init dT tend srt L ltac:(assumption) ltac:(assumption) ltac:(assumption) ltac:(assumption) ltac:(assumption)) as (l & r & E & Z & Rd).
    exists (with_fps l r g), l, r, init, dT, srt, (pl_nomT c), (pl_minT c). split; [lra|]. split; [exact E|]. split; auto.
  - destruct (regenerate_ready last0 g c e plan garbage init dT tend mL mR k srt lead L ltac:(assumption) ltac:(assumption) ltac:(assumption) ltac:(assumption) ltac:(assumption) ltac:(assumption) ltac:(assumption) ltac:(assumption)) as (ga & Ega & E & Rd).
    exists ga, (gn_left ga), (gn_right ga), init, dT, srt, lead, (pl_minT c). split; [destruct L as (_ & _ & L & _); lra|]. split; [exact E|]. split; [exact Rd|]. intros [-> Hr]. subst ga. apply replan_plain; auto.
Qed.
End Sessions.
