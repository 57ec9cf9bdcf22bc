(** The results of the plug-ins fit together. *)
From Coq Require Import String Reals Lra Lia ZArith List Bool Sorting.Sorted Sorting.Permutation.
From Verif Require Import Prelude FootPrint FootPrintSpec UnicycleFoot PlannerSearch PlannerSpec Planner EndToEndSpec EndToEndProofs EndToEndProofs3 EndToEndProofs4
  GenPhases GenSpec GenProofs GenProofs2 GenProofs3 FeetTraj FeetSpec FeetSpline FeetPose ZMP ZMPSpec ZMPProofs4 CoMHeight CoMHeightSpec DCM DCMSpec Generator GeneratorSpec GeneratorProofs
  SeamSpec SeamProofs AgreeSpec AgreeProofs Properties_Generator Properties_Feet Properties_ZMP Properties_ZMP2 Properties_DCM.
Import ListNotations.
Open Scope R_scope.
Notation Forall := List.Forall.

Lemma z_any : forall c, exists zops, c = z_after zops.
Proof.
  intros [a b d e i p]. exists (ZStance a b :: ZSwitch d e :: (match i with Some w => [ZInit w] | None => [] end ++ match p with Some (l, r) => [ZPrev l r] | None => [] end)).
  destruct i as [w|], p as [[l r]|]; reflexivity.
Qed.
Lemma carried_rest : forall s p, carried (rest_at s) p = world_of s p.
Proof.
  intros s p. unfold carried, report, rest_at, world_of, still. cbn [s_x s_y s_z s_pitch s_yaw p_p]. cbn [rp_pos rp_rot c1 c2 c3]. unfold rpy. cbn. rewrite cos_0, sin_0. unfold dot3. apply vec2_ext; cbn; ring.
Qed.
Lemma ord_alternates : forall g left right init dT srt out, in_turns (fp_steps left) (fp_steps right) -> sort_result (fp_steps left) (fp_steps right) srt -> named left -> named right ->
  fp_name left <> fp_name right -> generate_phases g left right init dT srt = Ok out -> alternating (tl (go_ord out)).
Proof.
  intros g left right init dT srt out Tu Hs Nl Nr Nn Gen. unfold generate_phases in Gen. destruct (Nat.ltb _ _); [discriminate|]. destruct (Nat.ltb _ _); [discriminate|]. destruct (String.eqb _ _); [discriminate|]. destruct (Rleb _ _); [discriminate|].
  destruct (fp_steps left) as [|a l] eqn:El; [discriminate|]. destruct (fp_steps right) as [|b r] eqn:Er; [discriminate|]. destruct (Rltb _ _); [discriminate|].
  apply rbind_ok in Gen. destruct Gen as (ord & Ho & Gen). apply rbind_ok in Gen. destruct Gen as (ph & _ & Gen). injection Gen as <-. cbn [go_ord].
  rewrite <- El, <- Er in *. eapply turns_alternate; eauto.
Qed.

(** What both feet generators do with a foot on the ground. *)
Definition grounded (left right : footprint) (out : genout) (TL TR : list sample) : Prop :=
  forall b : bool, length (if b then TL else TR) = length (ph_left (go_ph out))
  /\ forall m, (m < length (foot_phases (go_ph out) b))%nat -> nth_error (foot_phases (go_ph out) b) m <> Some Swing ->
     exists first s, hd_error (foot_list (fp_steps left) (fp_steps right) b) = Some first
     /\ stands_on first (planned (go_ord out)) (go_ph out) b m s /\ nth_error (if b then TL else TR) m = Some (rest_at s).

Section Agree.
Variable ops : list gop.
Variables left right : footprint.
Variables init dT : R.
Variable srt : list tstep.
Variable out : genout.
Hypothesis Srt : sort_result (fp_steps left) (fp_steps right) srt.
Hypothesis Nl : named left.
Hypothesis Nr : named right.
Hypothesis Nn : fp_name left <> fp_name right.
Hypothesis Tu : in_turns (fp_steps left) (fp_steps right).
Hypothesis Gen : generate_phases (settings_after ops) left right init dT srt = Ok out.
Hypothesis TiL : strictly_timed (fp_steps left).
Hypothesis TiR : strictly_timed (fp_steps right).
Let ph := go_ph out.

Lemma zmp_agrees : forall spl c zo c' TL TR, spline_contract spl -> zmp_of spl c (settings_after ops) init dT left right out = Ok (zo, c') ->
  grounded left right out TL TR -> forall i, (i < length (ph_left ph))%nat -> (bnd ph 1 <= i)%nat \/ z_prev c = None -> zmp_from_parts TL TR zo i.
Proof.
  intros spl c zo c' TL TR Hspl Hz Fo i Hi Hp. destruct (z_any c) as (zops & ->). pose proof (good_history ops) as G. fold (settings_after ops) in G.
  pose proof (ord_alternates _ _ _ _ _ _ _ Tu Srt Nl Nr Nn Gen) as Alt. assert (Alt2 : alternating (planned (go_ord out))) by (unfold planned; apply alternating_tl; exact Alt).
  destruct (generate_inv _ _ _ _ _ _ _ (good_history ops) Gen) as (l0 & r0 & H1 & H2 & Hd & _ & _ & _ & _ & _ & P & _). pose proof P as P0. destruct P0.
  destruct (run_world spl _ G left right init dT srt out Gen Srt Nl Nr _ _ _ Hz) as (oldL & oldR & Ho & LW & KW).
  destruct (nth_error (zo_world zo) i) as [w|] eqn:Ew; [|apply nth_error_None in Ew; fold ph in LW; lia].
  fold ph in KW, P, p_mono, p_size. destruct (KW i w Ew) as (sL & sR & a & b & x & y & T1 & T2 & E3 & E4 & E5 & E6 & ->).
  destruct (C47_complementary_shares ops zops left right init dT srt out spl zo c' Gen Hz) as (_ & _ & Sh). fold ph in Sh.
  destruct (Sh i Hi) as (a' & b' & Ea & Eb & _ & _ & _ & SL & SR & _). rewrite E3 in Ea. injection Ea as <-. rewrite E4 in Eb. injection Eb as <-. clear Sh.
  destruct (run_values spl _ G left right init dT srt out Gen _ _ _ Hz) as (_ & _ & _ & _ & K). fold ph in K. destruct (K i Hi) as (j & p & q & _ & _ & Cp & Pp & Pq & _). clear K.
  assert (Lr : length (ph_right ph) = length (ph_left ph)) by (pose proof (p_size true) as Q1; pose proof (p_size false) as Q2; cbn [foot_phases] in Q1, Q2; fold ph in Q1, Q2; lia).
  assert (One : forall (fb : bool) first s old wgt pt, hd_error (fp_steps (if fb then left else right)) = Some first ->
    latest (fp_steps (if fb then left else right)) (init + INR i * dT) s -> nth_error (if fb then zo_wl zo else zo_wr zo) i = Some wgt ->
    (nth_error (foot_phases ph fb) i = Some Swing -> p_p wgt = 0) -> (z_prev (z_after zops) = None -> old = first) ->
    exists u, nth_error (if fb then TL else TR) i = Some u
    /\ vscale (p_p wgt) (carried u pt) = vscale (p_p wgt) (if Nat.ltb i (bnd ph 1) then vadd (tf s pt) (vscale (p_p (ZMP.correction spl dT (bnd ph 1) i)) (vsub (tf old pt) (tf s pt))) else tf s pt)).
  { intros fb first s old wgt pt Hf La Hw Sw Hold. destruct (Fo fb) as [Len Fb]. fold ph in Len, Fb.
    assert (Lf : (i < length (foot_phases ph fb))%nat) by (destruct fb; cbn [foot_phases]; lia).
    assert (Dec : nth_error (foot_phases ph fb) i = Some Swing \/ nth_error (foot_phases ph fb) i <> Some Swing).
    { destruct (nth_error (foot_phases ph fb) i) as [[]|]; auto; right; discriminate. }
    destruct Dec as [D|D].
    - destruct (nth_error (if fb then TL else TR) i) as [u|] eqn:Eu; [|apply nth_error_None in Eu; lia]. exists u. split; auto. rewrite (Sw D). apply vec2_ext; cbn; ring.
    - destruct (Fb i Lf D) as (first' & s' & F1 & St & Eu). assert (first' = first) by (unfold foot_list in F1; destruct fb; congruence). subst first'. fold ph in St.
      exists (rest_at s'). split; auto. rewrite carried_rest, (tf_world s pt), (tf_world old pt).
      destruct (C66_search_matches_phases ops zops left right init dT srt out spl zo c' Hspl Srt TiL TiR Alt2 Gen Hz fb i s s' first wgt Hf La St Hw) as [<-|[-> _]]; [|apply vec2_ext; cbn; ring].
      destruct (Nat.ltb_spec i (bnd ph 1)) as [Lt|Ge]; [|reflexivity]. destruct Hp as [Q|Q]; [lia|]. rewrite (Hold Q).
      assert (Es : s = first); [|rewrite Es; apply vec2_ext; cbn; ring].
      destruct St as [(k & t & K1 & _ & K3 & _)|[-> _]]; auto. exfalso. assert (k < length (planned (go_ord out)))%nat by (apply nth_error_Some; congruence).
      assert (bnd ph 1 <= bnd ph (2 * k + 2))%nat by (apply p_mono; lia). lia. }
  assert (HL : hd_error (fp_steps left) = Some l0) by (destruct (fp_steps left); [discriminate|exact H1]). assert (HR : hd_error (fp_steps right) = Some r0) by (destruct (fp_steps right); [discriminate|exact H2]).
  destruct (One true l0 sL oldL a (q_p x) HL T1 E3) as (u & Eu & Vu).
  { cbn [foot_phases]. intros Q. assert (p = Swing) by congruence. subst p. assert (q = Stance) by (destruct Cp as [[? ?]|[[? ?]|[[? ?]|[? ?]]]]; congruence). subst q. destruct (SR Pq) as [-> _]. reflexivity. }
  { intros Q. unfold old_steps in Ho. rewrite Q in Ho. destruct Ho. congruence. }
  destruct (One false r0 sR oldR b (q_p y) HR T2 E4) as (v & Ev & Vv).
  { cbn [foot_phases]. intros Q. assert (q = Swing) by congruence. subst q. assert (p = Stance) by (destruct Cp as [[? ?]|[[? ?]|[[? ?]|[? ?]]]]; congruence). subst p. destruct (SL Pp) as (_ & Z & _). exact Z. }
  { intros Q. unfold old_steps in Ho. rewrite Q in Ho. destruct Ho. congruence. }
  exists (world_sample (Nat.ltb i (bnd ph 1)) (ZMP.correction spl dT (bnd ph 1) i) oldL oldR sL sR a b x y), a, b, x, y, u, v. repeat (split; [assumption|]).
  rewrite Vu, Vv. unfold world_sample. destruct (Nat.ltb i (bnd ph 1)); reflexivity.
Qed.

Lemma dcm_agrees : forall c o c' TL TR, run_ok ops left right init dT srt out c -> dcm_of c ops init dT left right out = Ok (o, c') ->
  grounded left right out TL TR -> forall i (b : bool), nth_error (foot_phases ph b) i = Some Stance -> dcm_zmp_on (if b then TL else TR) (offset_of c b) o i.
Proof.
  intros c o c' TL TR Rk Ho Fo i b Hb. pose proof (ord_alternates _ _ _ _ _ _ _ Tu Srt Nl Nr Nn Gen) as Alt.
  destruct (run_facts _ _ _ _ _ _ _ _ Rk) as (o1 & _ & _ & _ & _ & _ & _ & _ & Ho1 & Lo & _). assert (o1 = o) by congruence. subst o1. fold ph in Lo.
  destruct (generate_inv _ _ _ _ _ _ _ (good_history ops) Gen) as (u0 & v0 & _ & _ & _ & _ & _ & _ & _ & _ & P & _). destruct P. fold ph in p_size.
  assert (Li : (i < length (foot_phases ph b))%nat) by (apply nth_error_Some; congruence).
  assert (Ln : (i < length (ph_left ph))%nat) by (pose proof (p_size true) as Q1; rewrite p_size in Li; cbn [foot_phases] in Q1; lia).
  destruct (nth_error (do_samples o) i) as [y|] eqn:Ey; [|apply nth_error_None in Ey; lia].
  destruct (C67_stance_zmp_partial ops left right init dT srt out c o c' i y Rk Ho Alt Ey) as (l0 & r0 & HL & HR & A & B). fold ph in A, B.
  destruct (Fo b) as [_ Fb]. fold ph in Fb. destruct (Fb i Li) as (first & s & F1 & St & Eu); [congruence|]. exists y, (rest_at s). split; auto. split; auto. rewrite carried_rest.
  assert (Same : forall f s1 s2, stands_on f (planned (go_ord out)) ph b i s1 -> stands_on f (planned (go_ord out)) ph b i s2 -> s1 = s2).
  { intros f s1 s2 [(k & t & A1 & A2 & A3 & A4 & A5)|[-> A5]] [(k' & t' & B1 & B2 & B3 & B4 & B5)|[-> B5]]; auto.
    - assert (k = k') as -> by (pose proof (A5 k' t' B1 B2 B3); pose proof (B5 k t A1 A2 A3); lia). congruence.
    - specialize (B5 k t A1 A2). lia.
    - specialize (A5 k' t' B1 B2). lia. }
  destruct b; cbn [foot_phases foot_list offset_of] in *.
  - destruct (A Hb) as (s2 & St2 & E). rewrite E. do 2 f_equal. apply (Same l0); auto. replace first with l0 in St by congruence. exact St.
  - assert (Hl : nth_error (ph_left ph) i = Some Swing).
    { destruct (C34_complementary ops left right init dT srt out Gen i Ln) as (p & q & Pp & Pq & Cp & _). fold ph in Pp, Pq. rewrite Pp. f_equal. assert (q = Stance) by congruence. subst q.
      destruct Cp as [[? ?]|[[? ?]|[[? ?]|[? ?]]]]; congruence. }
    destruct (B Hl) as (s2 & St2 & E). rewrite E. do 2 f_equal. apply (Same r0); auto. replace first with r0 in St by congruence. exact St.
Qed.
End Agree.
