(** C98: in a session of generate and reGenerate calls in doubles, every generated walk becomes complete trajectories. *)
From Coq Require Import String Reals ZArith List Bool Lia Lra Sorting.Sorted Sorting.Permutation.
From Flocq Require Import Core IEEE754.BinarySingleNaN.
From Verif Require Import Prelude FootPrint GenPhases Generator Doubles DoublesGen DoublesSpec DoublesProofs DoublesProofs2 DoublesProofs4 DoublesProofs6 DoublesExec
  TimedPlan TimedPlanSpec TimedPlanProofs2 TimedPlanProofs3 TimedPlanProofs4 TimedPlanProofs5 TimedLoop TimedLoopSpec TimedLoopProofs RoomSpec RoomLoopProofs
  Properties_Doubles Properties_TimedPlan Properties_TimedLoop Properties_Room.
Import ListNotations.
Open Scope R_scope.
Opaque fadd fsub fmul fdiv fmake f1 fm1 fpi rad.

Lemma plan_complete : forall P (x : wargs f64 P) w l r w' ord ph B delta, sound w -> fit (wf_set w) x -> times_ok l -> times_ok r -> fresh64 l r ->
  recent l r (x_init x) delta -> ample (wf_set w) (x_pause x) (x_tend x) (x_dT x) B delta ->
  w_plan ieee "left" "right" x w l r = (w', WGenerated ord ph) ->
  all_complete (wf_set w) (x_pause x) (x_init x) (x_dT x) (nfoot_with "left" (wf_left w')) (nfoot_with "right" (wf_right w')) ord ph.
Proof.
  intros P x w l r w' ord ph B delta ((calls & FA & ES) & _) ((B' & HB) & HS) TL TR FR HR HA E. unfold w_plan in E.
  destruct HB as (Fi & Fe & Fd & Hr & Hd & HB1 & HB2 & Hend & HT1 & Hmin & HT2).
  destruct (t_plan ieee _ _ _ l r) as [l' r' sw sl| | |] eqn:EP; try discriminate.
  destruct (n_generate ieee (wf_set w) _ _ _ _ _ _) as [(ord' & ph')| |] eqn:EG; inversion E; subst w' ord' ph'. cbn [wf_left wf_right]. clear E.
  rewrite ES in *.
  destruct (first_plan_walk 0 P (x_geo x) calls (x_init x) (x_tend x) (x_term x) (x_rfoot x) (wf_start w) l r (x_fuel x) l' r' sw sl "left" "right" B')
    as (_ & WL & WR & _); auto.
  { pose proof (bpow_gt_0 radix2 (-900)). lra. }
  { apply Rle_trans with (2 := Hmin). pose proof (bpow_gt_0 radix2 (-900)). lra. }
  { left. lra. }
  destruct (C97_plan_to_trajectories P (x_geo x) calls (x_init x) (x_tend x) (x_term x) (x_rfoot x) (wf_start w) l r (x_fuel x) l' r' sw sl
    (x_pause x) (x_dT x) (x_sort x (n_all (nf_steps (named "left" l')) (nf_steps (named "right" r')))) B delta) as (ord2 & ph2 & G & _ & C); auto.
  { apply HS. intros a I. unfold n_all in I. apply in_app_or in I.
    assert (TG : forall z b n k, List.Forall (within P B') z -> In a (n_tag b k (map (fun y => (snd y, n)) z)) -> fin (n_time a) = true).
    { induction z as [|y z IHz]; intros b n k Z J; [destruct J|]. inversion Z; subst. destruct J as [<-|J]; [apply H1|eapply IHz; eauto]. }
    destruct I as [I|I]; [apply (TG l' true "left"%string 0%nat)|apply (TG r' false "right"%string 0%nat)]; auto. }
  change (nfoot_with "left" l') with (named (N := f64) "left" l') in G. change (nfoot_with "right" r') with (named (N := f64) "right" r') in G.
  rewrite G in EG. inversion EG; subst. exact C.
Qed.

(** C98: whatever was called before and however it ended, if a call in the intended range has generated, if a foot had landed
    at most [delta] before its initial time, and if the settings leave room, then all generators complete the walk. *)
Theorem C98_session_to_trajectories : forall P (h : list (wcall f64 P)) k x w' ord ph B delta, sane "left" "right" (w_new ieee) (h ++ [k]) ->
  let w := w_after ieee "left" "right" h in
  planning k = Some x -> recent_call w k delta -> ample (wf_set w) (x_pause x) (x_tend x) (x_dT x) B delta ->
  w_call ieee "left" "right" w k = (w', WGenerated ord ph) ->
  all_complete (wf_set w) (x_pause x) (x_init x) (x_dT x) (nfoot_with "left" (wf_left w')) (nfoot_with "right" (wf_right w')) ord ph.
Proof.
  intros P h k x w' ord ph B delta H w HP HR HA E. apply sane_app in H. destruct H as (H1 & H2). fold (w_after ieee "left" "right" h) in H2. fold w in H2.
  assert (I : sound w) by (apply after_sound; auto; [discriminate|apply sound_new]).
  destruct k as [s|b| |y|y reset k eL eR mL mR]; try discriminate HP; injection HP as ->; cbn [sane_call recent_call w_call] in *.
  - destruct H2 as (F & X). pose proof I as (_ & I2 & I3). apply (plan_complete P x w (wf_left w) (wf_right w) w' ord ph B delta); auto.
  - destruct H2 as (X & NL & NR). destruct HR as (D0 & z & Z1 & Z2). pose proof I as (I1 & I2 & I3).
    pose proof (ready_ok P (o_again (x_geo x)) (x_init x) reset k eL eR mL mR (wf_left w) (wf_right w) I2 I3 NL NR) as RO.
    destruct (t_ready ieee (o_again (x_geo x)) (x_init x) reset k eL eR mL mR (wf_left w) (wf_right w)) as ((l & r) & ok) eqn:ER.
    destruct RO as (T1 & T2 & RO & _). destruct ok; [|discriminate]. destruct RO as (a & b & -> & ->); auto.
    assert (Fi : fin (x_init x) = true) by (destruct X as ((B' & X) & _); apply X).
    apply (plan_complete P x w [a] [b] w' ord ph B delta); auto; [right; eauto|]. eapply (ready_recent P (o_again (x_geo x)) (x_init x) reset k eL eR mL mR (wf_left w) (wf_right w)); eauto.
Qed.
Print Assumptions C98_session_to_trajectories.

(** A session with a second plan from the third second on: the hypotheses hold for both generations. *)
Definition walk_session : list (wcall f64 unit) := map WSet walk_calls ++ [WGen (demo_args fzero (fmake 6 0))].
Definition walk_again : wcall f64 unit := WRe (demo_args (fmake 3 0) (fmake 9 0)) false CNone (fun p => p) (fun p => p) fzero fzero.
Lemma walk_fit : forall init tend, fin init = true -> fin tend = true -> f2r tend <= 9 -> fit (settings ieee walk_calls) (demo_args init tend).
Proof.
  intros init tend Fi Fe HE. destruct (demo_fit init tend Fi Fe HE) as ((B & F) & F2). split; [|exact F2]. exists B.
  assert (Q : forall q, In q [q_period; q_nomT; q_terminal; q_minT] -> settings ieee walk_calls q = settings ieee plan_calls q).
  { intros q Hq. repeat (destruct Hq as [<-|Hq]; [apply same_f64; vm_compute; reflexivity|]). destruct Hq. }
  unfold fits in *. rewrite !Q by (simpl; tauto). exact F.
Qed.
Lemma walk_settings : forall calls (w : world f64 unit), wf_set (fold_left (fun w k => fst (w_call ieee "left" "right" w k)) (map WSet calls) w) = fold_left (fun s c => fst (setv ieee c s)) calls (wf_set w)
  /\ wf_left (fold_left (fun w k => fst (w_call ieee "left" "right" w k)) (map WSet calls) w) = wf_left w
  /\ wf_right (fold_left (fun w k => fst (w_call ieee "left" "right" w k)) (map WSet calls) w) = wf_right w.
Proof. induction calls as [|c l IH]; intros w; [auto|]. cbn [map fold_left]. destruct (IH (fst (w_call ieee "left" "right" w (WSet c)))) as (A & B & C). rewrite A, B, C. auto. Qed.
Lemma sane_settings : forall calls (w : world f64 unit) r, List.Forall finite_args calls ->
  sane "left" "right" (fold_left (fun w k => fst (w_call ieee "left" "right" w k)) (map WSet calls) w) r -> sane "left" "right" w (map WSet calls ++ r).
Proof. induction calls as [|c l IH]; intros w r F H; [exact H|]. inversion F; subst. cbn [map app sane]. split; [exact H2|]. apply IH; auto. Qed.
Lemma walk_finite : List.Forall finite_args walk_calls.
Proof.
  assert (K : forallb (fun c => forallb fin (args c)) walk_calls = true) by (vm_compute; reflexivity). rewrite forallb_forall in K.
  apply List.Forall_forall. intros c Hc. specialize (K c Hc). rewrite forallb_forall in K. exact K.
Qed.
Lemma same_value : forall a b : f64, fin a = true -> fin b = true -> Bltb a b = false -> Bltb b a = false -> f2r a = f2r b /\ le64 a b.
Proof.
  intros a b Fa Fb K1 K2. rewrite blt_ok in K1, K2 by auto. assert (E : f2r a = f2r b) by (rcasesh K1; rcasesh K2; try discriminate; lra). split; [exact E|].
  apply le64_key; try (apply fin_number; auto). rewrite !key_fin by auto. lra.
Qed.
Example C98_example : exists w' ord ph, let w := w_after ieee "left" "right" walk_session in
  sane "left" "right" (w_new ieee) (walk_session ++ [walk_again])
  /\ recent_call w walk_again (1 / 8) /\ ample (wf_set w) false (fmake 9 0) (fmake 1 (-2)) 16 (1 / 8)
  /\ w_call ieee "left" "right" w walk_again = (w', WGenerated ord ph) /\ length (wf_left w') = 3%nat /\ length (wf_right w') = 3%nat
  /\ all_complete (wf_set w) false (fmake 3 0) (fmake 1 (-2)) (nfoot_with "left" (wf_left w')) (nfoot_with "right" (wf_right w')) ord ph.
Proof.
  set (w := w_after ieee "left" "right" walk_session).
  set (w0 := fold_left (fun w k => fst (w_call ieee "left" "right" w k)) (map WSet walk_calls) (w_new (P := unit) ieee)).
  assert (S0 : wf_set w0 = settings ieee walk_calls /\ wf_left w0 = [] /\ wf_right w0 = []) by (apply (walk_settings walk_calls (w_new ieee))).
  destruct S0 as (S0 & L0 & R0).
  assert (Ew : w = fst (w_call ieee "left" "right" w0 (WGen (demo_args fzero (fmake 6 0))))) by (unfold w, w_after, walk_session; rewrite fold_left_app; reflexivity).
  assert (Sw : wf_set w = settings ieee walk_calls).
  { rewrite Ew, <- S0. cbn [w_call]. unfold w_plan. destruct (t_plan _ _ _ _ _ _); reflexivity. }
  destruct (fmake_exact 6) as (F6 & V6); [lia|]. destruct (fmake_exact 9) as (F9 & V9); [lia|]. destruct (fmake_exact 3) as (F3 & V3); [lia|].
  assert (SA : sane "left" "right" (w_new ieee) (walk_session ++ [walk_again])).
  { unfold walk_session. rewrite <- app_assoc. apply sane_settings; [exact walk_finite|]. fold w0. cbn [app sane]. rewrite <- Ew.
    split; [cbn [sane_call]; rewrite L0, R0, S0; split; [left; auto|apply walk_fit; auto; lra]|].
    split; [|exact Logic.I]. cbn [walk_again sane_call corr_left corr_right]. split; [rewrite Sw; apply walk_fit; auto; lra|split; discriminate]. }
  assert (AM : ample (wf_set w) false (fmake 9 0) (fmake 1 (-2)) 16 (1 / 8)).
  { rewrite Sw. destruct (walk_ample (fmake 9 0) (1 / 8)) as (A1 & A2 & A3 & A4 & A5 & A6 & A7 & A8 & A9 & (A10 & A11 & _) & (A12 & _) & A13); [lra|lra|].
    repeat (split; [assumption|]). split; [split; [exact A10|split; [exact A11|discriminate]]|]. split; [split; [exact A12|discriminate]|exact A13]. }
  assert (RC : recent_call w walk_again (1 / 8)).
  { assert (K : match wf_left w with [_; a; b] => Bltb (snd a) (fmake 3 0) || Bltb (fmake 3 0) (snd a) || negb (fin (snd a)) || negb (Bltb (fmake 3 0) (snd b)) | _ => true end = false) by (vm_compute; reflexivity).
    destruct (wf_left w) as [|a [|b [|d [|? ?]]]] eqn:El; try discriminate K. apply orb_false_iff in K. destruct K as (K & K4). apply negb_false_iff in K4. apply orb_false_iff in K. destruct K as (K & K3). apply orb_false_iff in K. destruct K as (K1 & K2).
    apply negb_false_iff in K3. cbn [walk_again recent_call demo_args x_init corr_left]. split; [lra|]. exists b.
    destruct (same_value (snd b) (fmake 3 0) K3 F3 K1 K2) as (Eb & Lb).
    split; [rewrite Eb, V3; lra|]. left. rewrite El. split; [|discriminate]. exists [a], [d]. split; [reflexivity|]. split; [exact Lb|constructor; [exact K4|constructor]]. }
  destruct (C89_loop unit "left" "right" walk_session walk_again) as (N1 & N2); [discriminate|exact SA|]. fold w in N1, N2.
  assert (NL : length (wf_left (fst (w_call ieee "left" "right" w walk_again))) = 3%nat) by (vm_compute; reflexivity).
  assert (NR : length (wf_right (fst (w_call ieee "left" "right" w walk_again))) = 3%nat) by (vm_compute; reflexivity).
  assert (K : exists ord ph, snd (w_call ieee "left" "right" w walk_again) = WGenerated ord ph).
  { unfold walk_again in *. cbn [w_call] in *. set (tr := t_ready _ _ _ _ _ _ _ _ _ _ _) in *.
    assert (K : let '(l, r, ok) := tr in ok && match t_plan ieee (MkTC (wf_set w q_minT) (wf_set w q_maxT) (wf_set w q_nomT) (wf_set w q_period) (fmake 3 0) (fmake 9 0) true true (wf_start w)) some_geo 40 l r with TDone _ _ _ _ => true | _ => false end = true)
      by (vm_compute; reflexivity).
    destruct tr as ((l & r) & ok). apply andb_true_iff in K. destruct K as (-> & K). unfold w_plan in *. cbn [demo_args x_init x_tend x_term x_rfoot x_geo x_fuel] in *.
    destruct (t_plan ieee _ some_geo 40 l r); try discriminate K. cbn [snd] in *. destruct (n_generate _ _ _ _ _ _ _ _) as [(ord & ph)| |]; [eauto|congruence|congruence]. }
  destruct (w_call ieee "left" "right" w walk_again) as (w' & out) eqn:E. cbn [fst snd] in *. destruct K as (ord & ph & ->).
  exists w', ord, ph. split; [exact SA|]. split; [exact RC|]. split; [exact AM|]. split; [exact E|]. split; [exact NL|]. split; [exact NR|].
  exact (C98_session_to_trajectories unit walk_session walk_again (demo_args (fmake 3 0) (fmake 9 0)) w' ord ph 16 (1 / 8) SA eq_refl RC AM E).
Qed.
