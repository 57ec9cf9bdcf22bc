(** Planning does not fail, and its first step is late enough. *)
From Coq Require Import String Reals Lra Lia ZArith List Bool.
From Verif Require Import Prelude FootPrint UnicycleFoot Ellipse Optimization FootSpec FootProofs PlannerSearch PlannerSpec Planner
  PlannerProofs PlannerProofs2 PlannerProofs3 FootPrintSpec FootPrintProofs EndToEndSpec.
Import ListNotations.
Open Scope R_scope.

Lemma add_from_ok : forall u t f, ft_distSet f = true -> 0 <= t -> exists f', ft_addFromUnicycle u t f = (f', true).
Proof.
  intros u t f D Ht. unfold ft_addFromUnicycle, fp_addStep. rewrite D. cbn [negb].
  replace (Rltb t 0) with false by (symmetry; apply Rltb_false; lra). eauto.
Qed.
Lemma add_parallel_ok : forall o t f s, ft_getLast o = Some s -> 0 <= t -> exists f', ft_addParallel o t f = (f', true).
Proof.
  intros o t f s E Ht. unfold ft_addParallel, fp_addStep. rewrite E.
  replace (Rltb t 0) with false by (symmetry; apply Rltb_false; lra). eauto.
Qed.
Lemma getLast_addFrom : forall u t f f', ft_addFromUnicycle u t f = (f', true) -> ft_getLast f' <> None.
Proof.
  intros u t f f' E. apply addFrom_inv in E. destruct E as (_ & _ & E & _). unfold ft_getLast, fp_getLast. unfold fsteps in E. rewrite E, last_opt_app. discriminate.
Qed.
Lemma getLast_addParallel : forall o t f f', ft_addParallel o t f = (f', true) -> ft_getLast f' <> None.
Proof.
  intros o t f f' E. apply addParallel_inv in E. destruct E as (_ & os & _ & E & _). unfold ft_getLast, fp_getLast. unfold fsteps in E. rewrite E, last_opt_app. discriminate.
Qed.

Section Total.
Variable c : scfg.
Variables l0 r0 : foot.
Variable sw0 : bool.
Variable prev0 : step.
Hypothesis dT_pos : 0 < g_dT c.
Hypothesis init_nn : 0 <= g_init c.
Hypothesis distL : ft_distSet l0 = true.
Hypothesis distR : ft_distSet r0 = true.

Lemma dist_set : forall adds s, LInvB c l0 r0 sw0 prev0 adds s -> ft_distSet (swingOf s) = true /\ ft_distSet (stanceOf s) = true.
Proof.
  intros adds s H. destruct (stance_params c l0 r0 sw0 prev0 adds s H) as [(A & _) (B & _)].
  rewrite A, B. destruct (s_swingLeft s); auto.
Qed.
Lemma relative_defined : forall adds s u, LInvB c l0 r0 sw0 prev0 adds s -> exists a b p,
  get_rPl (s_swingLeft s) (s_left s) (s_right s) u = Some a /\ get_rel (s_swingLeft s) (s_left s) (s_right s) u = Some b
  /\ ft_posFromUnicycle (swingOf s) u = Some p.
Proof.
  intros adds s u H. destruct (dist_set _ _ H) as [D _]. pose proof (li_stance _ _ _ _ _ _ _ H) as E.
  unfold get_rPl, get_rel, ft_posFromUnicycle, swingOf, stanceOf in *. destruct (s_swingLeft s); rewrite E, D; cbn [negb]; do 3 eexists; repeat split.
Qed.
Lemma refresh_new : forall s f t o mc fst_, ft_getLast f <> None -> let '(l, r) := set_swing s f in
  exists s', refresh_prev (MkS l r (negb (s_swingLeft s)) fst_ t o mc 0 0 (s_prev s)) = Ok s' /\ s_tOpt s' = o /\ s_left s' = l /\ s_right s' = r /\ s_t s' = t.
Proof.
  intros s f t o mc fst_ E. unfold set_swing, refresh_prev, stanceOf. destruct (s_swingLeft s); cbn [negb s_swingLeft s_left s_right s_first s_t s_tOpt s_minCost s_pause s_offset];
    (destruct (ft_getLast f) as [x|]; [|congruence]); eexists; repeat split.
Qed.
Lemma body_total : forall adds s, LInv c l0 r0 sw0 prev0 adds s -> s_t s <= g_end c -> exists s', body c s = Ok s'.
Proof.
  intros adds s [H Hlt] He. destruct (dist_set _ _ H) as [D D2]. pose proof (li_stance _ _ _ _ _ _ _ H) as E. pose proof (li_init _ _ _ _ _ _ _ H) as Hi.
  unfold body. destruct (Rgeb _ _ && _); [|eauto]. destruct (ft_isTiny (g_sol c (s_t s)) (swingOf s)); cbn [negb]; [eauto|].
  destruct (Rgtb _ (g_maxT c) || _).
  - destruct (Rgtb (s_tOpt s) 0) eqn:Eo.
    + apply Rltb_true in Eo. unfold place_best. destruct (add_from_ok (g_sol c (s_tOpt s)) (s_tOpt s) (swingOf s) D ltac:(lra)) as [f Ef].
      rewrite Ef. cbn [negb]. pose proof (getLast_addFrom _ _ _ _ Ef) as N. pose proof (refresh_new s f (s_tOpt s) (-1) (s_minCost s) false N) as Q.
      destruct (set_swing s f) as [l r]. cbn [rbind]. destruct Q as (s' & Q & _). eauto.
    + unfold place_parallel, ft_stateFromStep. rewrite D2. cbn [negb]. 
      match goal with |- context [ft_isTiny ?u (swingOf s)] => destruct (ft_isTiny u (swingOf s)) end; cbn [negb rbind].
      * unfold refresh_prev, stanceOf. cbn [s_swingLeft s_left s_right]. unfold stanceOf in E. rewrite E. eauto.
      * destruct (add_parallel_ok (stanceOf s) (s_t s) (swingOf s) _ E ltac:(lra)) as [f Ef]. rewrite Ef. cbn [negb].
        pose proof (getLast_addParallel _ _ _ _ Ef) as N. pose proof (refresh_new s f (s_t s) (s_tOpt s) (s_minCost s) false N) as Q.
        destruct (set_swing s f) as [l r]. cbn [rbind]. destruct Q as (s' & Q & _). eauto.
  - unfold try_sample. destruct (relative_defined _ _ (g_sol c (s_t s)) H) as (a & b & p & -> & -> & ->). cbv zeta.
    destruct (_ && _); [|eauto]. destruct (_ || _); eauto.
Qed.
Lemma loop_total : forall fuel adds s, LInv c l0 r0 sw0 prev0 adds s -> run_loop c fuel s <> LFail.
Proof.
  induction fuel as [|fuel IH]; intros adds s H; simpl; destruct (Rleb (s_t s) (g_end c)) eqn:E; try discriminate.
  apply Rleb_true in E. destruct (body_total _ _ H E) as (s' & B).
  assert (I : iter1 c s = Ok (set_t s' (advance c (s_t s')))) by (unfold iter1; rewrite B; reflexivity). rewrite I.
  destruct (iter1_inv c l0 r0 sw0 prev0 dT_pos init_nn _ _ _ H E I) as (adds' & _ & L). exact (IH _ _ L).
Qed.

(** The first placed step comes after the waiting time [o]. *)
Variable o : R.
Definition waits (adds : list step) (s : sst) : Prop :=
  match adds with
  | [] => s_offset s = o /\ (s_tOpt s < 0 \/ g_init c + o < s_tOpt s)
  | x :: _ => g_init c + o < st_time x
  end.
Lemma body_waits : forall adds s s', LInv c l0 r0 sw0 prev0 adds s -> waits adds s -> s_t s <= g_end c -> body c s = Ok s' ->
  exists adds', is_place adds' adds /\ LInvB c l0 r0 sw0 prev0 adds' s' /\ waits adds' s'.
Proof.
  intros adds s s' H W He B. destruct (body_inv c l0 r0 sw0 prev0 dT_pos init_nn adds s s' H He B) as (adds' & P & L). exists adds'. split; [exact P|]. split; [exact L|].
  destruct adds as [|x adds].
  2:{ destruct P as [->|[y ->]]; exact W. }
  destruct W as [W1 W2]. destruct H as [H Hlt]. pose proof H as H0. destruct H0 as [H1 H2 H3 H4 H5 H6 H7 H8 H9 H10 H11 H12 H13].
  cbn [deal fst snd] in H1, H2. rewrite app_nil_r in H1, H2. cbn [length turn] in H5.
  assert (F : forall x, fsteps (s_left s') = fsteps l0 ++ fst (deal sw0 [x]) -> fsteps (s_right s') = fsteps r0 ++ snd (deal sw0 [x]) ->
     fsteps (if sw0 then s_left s' else s_right s') = fsteps (swingOf s) ++ [x]).
  { intros x A1 A2. unfold swingOf. rewrite H5. cbn in A1, A2. destruct sw0; [rewrite A1, H1|rewrite A2, H2]; reflexivity. }
  assert (Same : s_left s' = s_left s -> s_right s' = s_right s -> s_offset s' = s_offset s ->
     s_tOpt s' = s_tOpt s \/ (s_tOpt s' = s_t s /\ g_init c + s_offset s < s_t s) -> waits adds' s').
  { intros A1 A2 A3 A4. destruct P as [->|[y ->]].
    - split; [congruence|]. destruct A4 as [->|[-> A4]]; [exact W2|right; rewrite <- W1; exact A4].
    - exfalso. destruct L as [L1 L2 _ _ _ _ _ _ _ _ _ _ _]. rewrite A1, H1 in L1. rewrite A2, H2 in L2. cbn in L1, L2.
      apply (f_equal (@List.length step)) in L1, L2. rewrite app_length in L1, L2. destruct sw0; cbn in L1, L2; lia. }
  assert (Placed : forall f t x, fsteps f = fsteps (swingOf s) ++ [x] -> g_init c + o < st_time x ->
     (let '(l, r) := set_swing s f in s_left s' = l /\ s_right s' = r) -> t = st_time x -> waits adds' s').
  { intros f t x A1 A2 A3 _. unfold set_swing in A3. destruct L as [L1 L2 _ _ _ _ _ _ _ _ _ _ _]. destruct P as [->|[y ->]].
    - exfalso. cbn in L1, L2. rewrite app_nil_r in L1, L2. unfold swingOf in A1. rewrite H5 in A1, A3. destruct sw0; destruct A3 as [A3 A4].
      + rewrite A3, A1, H1 in L1. apply (f_equal (@List.length step)) in L1. rewrite app_length in L1. cbn in L1. lia.
      + rewrite A4, A1, H2 in L2. apply (f_equal (@List.length step)) in L2. rewrite app_length in L2. cbn in L2. lia.
    - cbn [app] in *. pose proof (F y L1 L2) as Q. assert (Ef : (if sw0 then s_left s' else s_right s') = f).
      { rewrite H5 in A3. destruct sw0; destruct A3; congruence. }
      rewrite Ef, A1 in Q. apply app_inv_head in Q. injection Q as <-. exact A2. }
  unfold body in B. destruct (Rgeb _ _ && _) eqn:Eg; [|injection B as <-; apply Same; auto].
  apply andb_true_iff in Eg. destruct Eg as [_ Eg]. unfold Rgtb in Eg. apply Rltb_true in Eg.
  destruct (ft_isTiny (g_sol c (s_t s)) (swingOf s)); cbn [negb] in B; [injection B as <-; apply Same; auto|].
  destruct (Rgtb _ (g_maxT c) || _).
  - destruct (Rgtb (s_tOpt s) 0) eqn:Eo.
    + apply Rltb_true in Eo. unfold place_best in B. destruct (ft_addFromUnicycle (g_sol c (s_tOpt s)) (s_tOpt s) (swingOf s)) as [f ok] eqn:Ef.
      destruct ok; cbn [negb] in B; [|discriminate]. pose proof (getLast_addFrom _ _ _ _ Ef) as N.
      pose proof (refresh_new s f (s_tOpt s) (-1) (s_minCost s) false N) as Q. apply addFrom_inv in Ef. destruct Ef as (_ & _ & Ef & _).
      assert (Z : let '(l, r) := set_swing s f in s_left s' = l /\ s_right s' = r).
      { destruct (set_swing s f) as [l r]. cbn [rbind] in B. destruct Q as (s2 & Q & _ & Q1 & Q2 & _). rewrite Q in B. injection B as <-. auto. }
      eapply Placed; [exact Ef| |exact Z|reflexivity]. cbn [st_time]. destruct W2 as [W2|W2]; lra.
    + unfold place_parallel in B. destruct (ft_stateFromStep (stanceOf s) (s_prev s)) as [u|]; [|discriminate].
      destruct (ft_isTiny u (swingOf s)); cbn [negb rbind] in B.
      * unfold refresh_prev in B. destruct (ft_getLast _); [|discriminate]. injection B as <-. apply Same; auto.
      * destruct (ft_addParallel (stanceOf s) (s_t s) (swingOf s)) as [f ok] eqn:Ef. destruct ok; cbn [negb] in B; [|discriminate].
        pose proof (getLast_addParallel _ _ _ _ Ef) as N. pose proof (refresh_new s f (s_t s) (s_tOpt s) (s_minCost s) false N) as Q.
        apply addParallel_inv in Ef. destruct Ef as (_ & os & _ & Ef & _).
        assert (Z : let '(l, r) := set_swing s f in s_left s' = l /\ s_right s' = r).
        { destruct (set_swing s f) as [l r]. cbn [rbind] in B. destruct Q as (s2 & Q & _ & Q1 & Q2 & _). rewrite Q in B. injection B as <-. auto. }
        eapply Placed; [exact Ef| |exact Z|reflexivity]. cbn [st_time]. lra.
  - unfold try_sample in B. destruct (get_rPl _ _ _ _); [|discriminate]. destruct (get_rel _ _ _ _); [|discriminate].
    destruct (ft_posFromUnicycle _ _); [|discriminate]. cbv zeta in B. destruct (_ && _); [|injection B as <-; apply Same; auto].
    destruct (_ || _); injection B as <-; apply Same; auto.
Qed.
Lemma loop_waits : forall fuel adds s s', LInv c l0 r0 sw0 prev0 adds s -> waits adds s -> run_loop c fuel s = LDone s' ->
  exists adds', LInv c l0 r0 sw0 prev0 adds' s' /\ waits adds' s'.
Proof.
  induction fuel as [|fuel IH]; intros adds s s' H W R0; cbn [run_loop] in R0.
  - destruct (Rleb (s_t s) (g_end c)); [discriminate|]. injection R0 as <-. eauto.
  - destruct (Rleb (s_t s) (g_end c)) eqn:E; [|injection R0 as <-; eauto]. apply Rleb_true in E.
    unfold iter1 in R0. destruct (body c s) as [s1| |] eqn:B; cbn [rbind] in R0; try discriminate.
    destruct (body_waits _ _ _ H W E B) as (adds' & _ & L & W'). eapply (IH adds'); [| |exact R0].
    + apply LInvB_advance; auto.
    + destruct adds'; exact W'.
Qed.
End Total.

Lemma terminal_total : forall c (sw : bool) l r u prev, 0 <= g_init c -> 0 <= g_nomT c -> ft_distSet l = true -> ft_distSet r = true ->
  ft_getLast (if sw then r else l) = Some prev -> exists x, terminal_step c sw l r u = Ok x.
Proof.
  intros c sw l r u prev Hi Hn DL DR E. unfold terminal_step. rewrite E.
  assert (T : 0 <= Rmax (g_init c + g_nomT c) (st_time prev + g_nomT c)) by (eapply Rle_trans; [|apply Rmax_l]; lra).
  set (stepTime := Rmax (g_init c + g_nomT c) (st_time prev + g_nomT c)) in *.
  assert (Q : exists a b p, get_rPl sw l r u = Some a /\ get_rel sw l r u = Some b /\ ft_posFromUnicycle (if sw then l else r) u = Some p).
  { unfold get_rPl, get_rel, ft_posFromUnicycle. destruct sw; rewrite E, ?DL, ?DR; cbn [negb]; do 3 eexists; repeat split. }
  destruct Q as (a & b & p & -> & -> & ->). cbv zeta.
  destruct (_ && _ && _).
  - destruct (add_from_ok u stepTime (if sw then l else r) ltac:(destruct sw; auto) T) as [f ->]. cbn [negb].
    destruct (add_from_ok u (stepTime + g_nomT c) (if sw then r else l) ltac:(destruct sw; auto) ltac:(lra)) as [f2 ->]. cbn [negb]. eauto.
  - unfold ft_stateFromStep. replace (ft_distSet (if sw then r else l)) with true by (destruct sw; auto). cbn [negb].
    match goal with |- context [ft_isTiny ?v ?f] => destruct (ft_isTiny v f) end; cbn [negb]; [eauto|].
    destruct (add_parallel_ok (if sw then r else l) stepTime (if sw then l else r) prev E T) as [f ->]. cbn [negb]. eauto.
Qed.

(** What a search needs to succeed. *)
Record search_ready (c : scfg) (l0 r0 : foot) (sw0 : bool) (prev0 other0 : step) : Prop := {
  sr_dT : 0 < g_dT c;
  sr_nomT : 0 <= g_nomT c;
  sr_init : 0 <= g_init c;
  sr_end : g_init c < g_end c;
  sr_dl : ft_distSet l0 = true;
  sr_dr : ft_distSet r0 = true;
  sr_prev : ft_getLast (stance_of sw0 l0 r0) = Some prev0;
  sr_other : ft_getLast (swing_of sw0 l0 r0) = Some other0;
  sr_time : st_time prev0 <= g_init c
}.
Lemma getLast_steps : forall f x, ft_getLast f = Some x -> fsteps f <> [].
Proof. intros f x E N. unfold ft_getLast, fp_getLast in E. unfold fsteps in N. rewrite N in E. discriminate. Qed.
Lemma steps_getLast : forall f, fsteps f <> [] -> exists x, ft_getLast f = Some x.
Proof.
  intros f N. unfold ft_getLast, fp_getLast. unfold fsteps in N. destruct (exists_last N) as (l & x & ->). rewrite last_opt_app. eauto.
Qed.
Lemma start_inv : forall c l0 r0 sw0 prev0 other0 (first : bool), search_ready c l0 r0 sw0 prev0 other0 ->
  LInv c l0 r0 sw0 prev0 [] (MkS l0 r0 sw0 first (g_init c) (-1) (10 ^ 10) (g_init c - st_time prev0) (if first then g_nomT c else 0) prev0).
Proof.
  intros c l0 r0 sw0 prev0 other0 first [H1 H2 H3 H4 H5 H6 H7 H8 H9].
  split; [constructor|]; simpl; rewrite ?app_nil_r; auto; try (unfold same_params; tauto); try lra.
  all: try (destruct first; lra); try (left; lra).
Qed.
Lemma search_total : forall c addTerm reset l0 r0 sw0 first sl prev0 other0, search_ready c l0 r0 sw0 prev0 other0 ->
  exists fuel l' r' sw' sl', search_steps c fuel addTerm reset l0 r0 sw0 first sl = PDone l' r' sw' sl'.
Proof.
  intros c addTerm reset l0 r0 sw0 first sl prev0 other0 H. pose proof (start_inv _ _ _ _ _ _ first H) as L0. pose proof H as [H1 H2 H3 H4 H5 H6 H7 H8 H9].
  destruct (search_terminates c addTerm reset l0 r0 sw0 first sl H1 H2 H4 H3) as [fuel F]. exists fuel. specialize (F fuel (Nat.le_refl _)).
  unfold search_steps in *. change (if sw0 then r0 else l0) with (stance_of sw0 l0 r0) in *. rewrite H7 in *. cbv zeta in *.
  match type of L0 with LInv _ _ _ _ _ _ ?x => set (s0 := x) in * end.
  pose proof (loop_total c l0 r0 sw0 prev0 H1 H3 H5 H6 fuel [] s0 L0) as NF.
  destruct (run_loop c fuel s0) as [s| |] eqn:Er; try congruence. clear NF.
  destruct (run_loop_inv c l0 r0 sw0 prev0 H1 H3 fuel [] s0 s L0 Er) as (adds & [L _] & _). cbn [app] in L.
  pose proof L as [Q1 Q2 Q3 Q4 Q5 Q6 Q7 Q8 _ _ _ _ _].
  assert (T : exists l r, (if addTerm then terminal_step c (s_swingLeft s) (s_left s) (s_right s) (g_sol c (g_end c)) else Ok (s_left s, s_right s)) = Ok (l, r)
     /\ fsteps l <> [] /\ fsteps r <> []).
  { assert (N : fsteps (s_left s) <> [] /\ fsteps (s_right s) <> []).
    { rewrite Q1, Q2. apply getLast_steps in H7, H8. unfold stance_of, swing_of in *.
      split; intros N; apply app_eq_nil in N; destruct N as [N _]; destruct sw0; congruence. }
    destruct addTerm; [|exists (s_left s), (s_right s); split; [reflexivity|exact N]].
    assert (DL : ft_distSet (s_left s) = true) by (destruct Q3 as (-> & _); exact H5).
    assert (DR : ft_distSet (s_right s) = true) by (destruct Q4 as (-> & _); exact H6).
    destruct (terminal_total c (s_swingLeft s) (s_left s) (s_right s) (g_sol c (g_end c)) (s_prev s) H3 H2 DL DR Q8) as [[l r] Et].
    exists l, r. split; [exact Et|]. destruct (terminal_spec _ _ _ _ _ _ _ _ H2 Q8 Et) as (term & _ & _ & T3 & T4 & _).
    rewrite T3, T4. destruct N as [N1 N2]. split; intros E; apply app_eq_nil in E; tauto. }
  destruct T as (l & r & -> & N1 & N2). destruct (_ && _); [|do 4 eexists; reflexivity].
  destruct (steps_getLast _ N1) as [a Ea]. destruct (steps_getLast _ N2) as [b Eb].
  destruct (sync_defined (ft_fp l) (ft_fp r) reset sl a b Ea Eb) as [[[fl fr] sl2] ->]. do 4 eexists; reflexivity.
Qed.
Lemma sync_lengths : forall fl fr rs sl fl' fr' sl', sync_feet fl fr rs sl = Ok (fl', fr', sl') ->
  (List.length (fp_steps fl') <= List.length (fp_steps fl) /\ List.length (fp_steps fr') <= List.length (fp_steps fr))%nat.
Proof.
  assert (K : forall f p a t, fp_steps f <> [] -> (List.length (fp_steps (fst (fp_addStep p a t (fp_clearLast f)))) <= List.length (fp_steps f))%nat).
  { intros f p a t N. unfold fp_addStep, fp_clearLast, fp_number. destruct (exists_last N) as (l & x & E). rewrite E, app_length. cbn [List.length].
    replace (Nat.eqb (List.length l + 1) 0) with false by (symmetry; apply Nat.eqb_neq; lia). cbn [fp_steps fp_name]. rewrite removelast_last.
    destruct (Rltb t 0); cbn [fst fp_steps]; rewrite ?app_length; cbn [List.length]; lia. }
  intros fl fr rs sl fl' fr' sl' H. unfold sync_feet in H. destruct (fp_getLast fl) as [a|] eqn:E1; [|discriminate]. destruct (fp_getLast fr) as [b|] eqn:E2; [|discriminate].
  assert (N1 : fp_steps fl <> []) by (intros N; unfold fp_getLast in E1; rewrite N in E1; discriminate).
  assert (N2 : fp_steps fr <> []) by (intros N; unfold fp_getLast in E2; rewrite N in E2; discriminate).
  destruct (Rgtb _ _).
  - pose proof (K fr (st_pos b) (st_angle b) (st_time a) N2) as Q. destruct (fp_addStep _ _ _ _) as [f k]. injection H as <- <- <-. cbn [fst] in Q. lia.
  - destruct (Rltb _ _).
    + pose proof (K fl (st_pos a) (st_angle a) (st_time b) N1) as Q. destruct (fp_addStep _ _ _ _) as [f k]. injection H as <- <- <-. cbn [fst] in Q. lia.
    + injection H as <- <- <-. lia.
Qed.
Lemma deal_inj : forall a b sw, fst (deal sw a) = fst (deal sw b) -> snd (deal sw a) = snd (deal sw b) -> a = b.
Proof.
  induction a as [|x a IH]; intros [|y b] sw E1 E2.
  - reflexivity.
  - exfalso. pose proof (deal_length (y :: b) sw) as L. rewrite <- E1, <- E2 in L. cbn in L. lia.
  - exfalso. pose proof (deal_length (x :: a) sw) as L. rewrite E1, E2 in L. cbn in L. lia.
  - cbn [deal] in E1, E2. pose proof (IH b (negb sw)) as I. destruct (deal (negb sw) a) as [p q], (deal (negb sw) b) as [p' q'].
    destruct sw; cbn [fst snd] in *.
    + injection E1 as -> E1. f_equal. apply I; assumption.
    + injection E2 as -> E2. f_equal. apply I; assumption.
Qed.
(** The first step a search adds comes after the waiting time. *)
Lemma search_first : forall c fuel addTerm reset l0 r0 sw0 first sl prev0 other0 l' r' sw' sl', search_ready c l0 r0 sw0 prev0 other0 ->
  search_steps c fuel addTerm reset l0 r0 sw0 first sl = PDone l' r' sw' sl' ->
  forall x added, fsteps l' = fsteps l0 ++ fst (deal sw0 (x :: added)) -> fsteps r' = fsteps r0 ++ snd (deal sw0 (x :: added)) ->
  g_init c + (if first then g_nomT c else 0) < st_time x \/ g_init c + g_nomT c <= st_time x.
Proof.
  intros c fuel addTerm reset l0 r0 sw0 first sl prev0 other0 l' r' sw' sl' H E x added Ex1 Ex2. pose proof (start_inv _ _ _ _ _ _ first H) as L0. pose proof H as [H1 H2 H3 H4 H5 H6 H7 H8 H9].
  unfold search_steps in *. change (if sw0 then r0 else l0) with (stance_of sw0 l0 r0) in *. rewrite H7 in *. cbv zeta in *.
  match type of L0 with LInv _ _ _ _ _ _ ?x => set (s0 := x) in * end.
  destruct (run_loop c fuel s0) as [s| |] eqn:Er; try congruence.
  assert (W0 : waits c (if first then g_nomT c else 0) [] s0) by (split; [reflexivity|left; cbn; lra]).
  destruct (loop_waits c l0 r0 sw0 prev0 H1 H3 _ fuel [] s0 s L0 W0 Er) as (adds & [L _] & W).
  pose proof L as [Q1 Q2 Q3 Q4 Q5 Q6 Q7 Q8 _ _ _ _ _].
  assert (HT : exists l r term, (if addTerm then terminal_step c (s_swingLeft s) (s_left s) (s_right s) (g_sol c (g_end c)) else Ok (s_left s, s_right s)) = Ok (l, r)
     /\ chain (nominal_after (g_init c) (g_nomT c)) (s_swingLeft s) (s_prev s) term
     /\ fsteps l = fsteps l0 ++ fst (deal sw0 (adds ++ term)) /\ fsteps r = fsteps r0 ++ snd (deal sw0 (adds ++ term))).
  { destruct addTerm.
    - destruct (terminal_step c (s_swingLeft s) (s_left s) (s_right s) (g_sol c (g_end c))) as [[l r]| |] eqn:Et; try discriminate.
      destruct (terminal_spec _ _ _ _ _ _ _ _ H2 Q8 Et) as (term & _ & T2 & T3 & T4 & _).
      exists l, r, term. split; [reflexivity|]. split; [exact T2|]. rewrite deal_app2, <- Q5; simpl. rewrite T3, T4, Q1, Q2, !app_assoc. auto.
    - exists (s_left s), (s_right s), []. rewrite app_nil_r. repeat split; auto. }
  destruct HT as (l & r & term & T0 & T2 & T4 & T5). rewrite T0 in E.
  assert (Z : fsteps l' = fsteps l /\ fsteps r' = fsteps r).
  { destruct (_ && _) eqn:En; [exfalso|injection E as <- <- <- <-; auto].
    apply andb_true_iff in En. destruct En as [En1 En2]. apply Nat.eqb_eq in En1, En2. unfold ft_number, fp_number in En1, En2.
    destruct (sync_feet _ _ _ _) as [[[fl fr] sl2]| |] eqn:Es; try discriminate. injection E as <- <- <- <-.
    apply (f_equal (@List.length step)) in Ex1, Ex2. unfold fsteps in *. cbn [ft_withFP ft_fp] in *.
    pose proof (sync_lengths _ _ _ _ _ _ _ Es) as [Z1 Z2]. rewrite app_length in Ex1, Ex2.
    pose proof (deal_length (x :: added) sw0) as Hd. cbn [List.length] in Hd. lia. }
  destruct Z as [Z1 Z2]. rewrite Z1, T4 in Ex1. rewrite Z2, T5 in Ex2. apply app_inv_head in Ex1, Ex2.
  assert (X : adds ++ term = x :: added) by (eapply deal_inj; eauto).
  destruct adds as [|y adds]; cbn [app] in X.
  - right. subst term. destruct T2 as [T2 _]. unfold nominal_after in T2. rewrite T2. pose proof (Rmax_l (g_init c) (st_time (s_prev s))). lra.
  - left. injection X as <- _. exact W.
Qed.

(** ** A whole planning call *)
Lemma init_ready : forall c e init tend lfp rfp, good_cfg c -> (forall u, v_integ e u <> None) -> can_plan c e init tend (fp_steps lfp) (fp_steps rfp) ->
  exists i sol prev other, init_planner c e init tend lfp rfp = Some (i, sol)
  /\ ft_getLast (stance_of (i_swingLeft i) (i_left i) (i_right i)) = Some prev /\ ft_getLast (swing_of (i_swingLeft i) (i_left i) (i_right i)) = Some other
  /\ ft_distSet (i_left i) = true /\ ft_distSet (i_right i) = true /\ st_time prev <= init.
Proof.
  intros c e init tend lfp rfp [G1 G2 G3 G4] Hint [C1 C2 C3 C4 C5 C6 C7].
  assert (Z : exists i, init_state c e init (pl_foot c true lfp) (pl_foot c false rfp) = Some i
     /\ exists a b, ft_getLast (i_left i) = Some a /\ ft_getLast (i_right i) = Some b /\ st_time a <= init /\ st_time b <= init
     /\ ft_distSet (i_left i) = true /\ ft_distSet (i_right i) = true).
  { unfold init_state, feet_state. rewrite !fsteps_last. change (fsteps (pl_foot c true lfp)) with (fp_steps lfp). change (fsteps (pl_foot c false rfp)) with (fp_steps rfp).
    destruct C7 as [(-> & -> & C7)|(N1 & N2 & B1 & B2)].
    - cbn [last_opt].
      assert (U : exists u, match pl_ctrl c with CPerson => match v_point e with None => None | Some p => Some (MkU (vsub p (v_person e)) 0) end | _ => Some (MkU vzero 0) end = Some u).
      { destruct (pl_ctrl c); [destruct (v_point e); [|exfalso; apply C7; reflexivity]| |]; eauto. }
      destruct U as [u ->]. cbn [i_left i_right i_first i_state].
      destruct (addFrom_fst u init (pl_foot c true lfp) eq_refl) as [A1 (A2 & _)]. destruct (addFrom_fst u init (pl_foot c false rfp) eq_refl) as [D1 (D2 & _)].
      destruct A1 as [[_ A1]|[? _]]; [|lra]. destruct D1 as [[_ D1]|[? _]]; [|lra].
      eexists. split; [reflexivity|]. cbn [i_left i_right]. do 2 eexists. rewrite !fsteps_last, A1, D1, !last_opt_app. split; [reflexivity|]. split; [reflexivity|].
      cbn [st_time]. rewrite A2, D2. repeat split; lra.
    - assert (E1 : exists a, last_opt (fp_steps lfp) = Some a) by (destruct (exists_last N1) as (l & x & ->); rewrite last_opt_app; eauto).
      assert (E2 : exists a, last_opt (fp_steps rfp) = Some a) by (destruct (exists_last N2) as (l & x & ->); rewrite last_opt_app; eauto).
      destruct E1 as [a E1]. destruct E2 as [b E2]. rewrite E1, E2. pose proof (B1 _ E1) as T1. pose proof (B2 _ E2) as T2.
      assert (R1 : forall x y, x <= y -> Rltb y x = false) by (intros; apply Rltb_false; lra).
      assert (F : forall sw (first : bool) u t0, t0 <= init -> exists i,
        (if Rltb init t0 || Rltb init 0 || (first && Rltb (init + pl_nomT c - pl_minT c) 0) then None
         else Some (MkInit (pl_foot c true lfp) (pl_foot c false rfp) (match pl_ctrl c with CPerson => sw | _ => if first && Rgtb (Rabs (v_lateral e)) 0 then Rgtb (v_lateral e) 0 else sw end) first u)) = Some i
        /\ i_left i = pl_foot c true lfp /\ i_right i = pl_foot c false rfp).
      { intros sw first u t0 Ht. rewrite !R1 by lra. rewrite andb_false_r. cbn [orb]. eexists. split; [reflexivity|]. split; reflexivity. }
      unfold ft_stateFromStep. cbn [pl_foot ft_distSet negb].
      assert (K : forall i, i_left i = pl_foot c true lfp -> i_right i = pl_foot c false rfp -> exists a b, ft_getLast (i_left i) = Some a /\ ft_getLast (i_right i) = Some b /\ st_time a <= init /\ st_time b <= init
           /\ ft_distSet (i_left i) = true /\ ft_distSet (i_right i) = true).
      { intros i -> ->. exists a, b. repeat split; auto. }
      destruct (Reqb (st_time a) (st_time b)).
      + destruct (pl_startLeft c); cbn [i_first i_left i_right i_swingLeft i_state];
          match goal with |- context [MkInit _ _ _ true ?u] => destruct (F (pl_startLeft c) true u (st_time a) T1) as (i & E & I1 & I2) || idtac end.
        all: match goal with |- exists i, (if _ then None else Some (MkInit _ _ (match _ with CPerson => ?s | _ => _ end) _ ?u)) = _ /\ _ => destruct (F s true u (st_time a) T1) as (i2 & E' & J1 & J2) end.
        all: exists i2; split; [exact E'|apply K; assumption].
      + destruct (Rltb (st_time a) (st_time b)); cbn [i_first i_left i_right i_swingLeft i_state].
        * match goal with |- exists i, (if _ then None else Some (MkInit _ _ (match _ with CPerson => ?s | _ => _ end) _ ?u)) = _ /\ _ => destruct (F s false u (st_time b) T2) as (i2 & E' & J1 & J2) end.
          exists i2; split; [exact E'|apply K; assumption].
        * match goal with |- exists i, (if _ then None else Some (MkInit _ _ (match _ with CPerson => ?s | _ => _ end) _ ?u)) = _ /\ _ => destruct (F s false u (st_time a) T1) as (i2 & E' & J1 & J2) end.
          exists i2; split; [exact E'|apply K; assumption]. }
  destruct Z as (i & Ei & a & b & Ea & Eb & Ta & Tb & D1 & D2). unfold init_planner. rewrite Ei.
  replace (Rleb tend init) with false by (symmetry; apply Rleb_false; lra).
  destruct (v_integ e (i_state i)) as [sol|] eqn:Es; [|exfalso; exact (Hint _ Es)].
  exists i, sol. unfold stance_of, swing_of. destruct (i_swingLeft i); do 2 eexists; (split; [reflexivity|]); repeat split; eauto.
Qed.
Lemma plan_succeeds : forall c e init tend lfp rfp, good_cfg c -> 0 < pl_dT c -> (forall u, v_integ e u <> None) -> can_plan c e init tend (fp_steps lfp) (fp_steps rfp) ->
  exists fuel l r sw sl, compute_new_steps c e fuel lfp rfp init tend = PDone l r sw sl.
Proof.
  intros c e init tend lfp rfp G Hd Hint C. destruct (init_ready c e init tend lfp rfp G Hint C) as (i & sol & prev & other & Ei & E1 & E2 & D1 & D2 & T).
  destruct G as [G1 G2 G3 G4]. destruct C as [C1 C2 C3 C4 C5 C6 _].
  assert (SR : search_ready (pl_search c init tend sol) (i_left i) (i_right i) (i_swingLeft i) prev other) by (constructor; cbn; auto; lra).
  destruct (search_total _ (pl_addTerm c) (pl_reset c) _ _ _ (i_first i) (pl_startLeft c) _ _ SR) as (fuel & l & r & sw & sl & E).
  exists fuel, l, r, sw, sl. unfold compute_new_steps, Rgtb, Rgeb. 
  rewrite (proj2 (Rltb_false _ _)) by lra. rewrite (proj2 (Rltb_false _ _)) by lra. rewrite (proj2 (Rleb_false _ _)) by lra. rewrite C4. cbn [negb]. rewrite Ei. exact E.
Qed.
Lemma plan_needs : forall c e fuel lfp rfp init tend l r sw sl, nonneg_times (fp_steps lfp) -> nonneg_times (fp_steps rfp) ->
  (fp_steps lfp = [] <-> fp_steps rfp = []) -> compute_new_steps c e fuel lfp rfp init tend = PDone l r sw sl -> can_plan c e init tend (fp_steps lfp) (fp_steps rfp).
Proof.
  intros c e fuel lfp rfp init tend l r sw sl Nl Nr Hb H. unfold compute_new_steps in H.
  destruct (Rgtb (pl_nomWidth c) (pl_maxLen c)) eqn:E1; [discriminate|]. destruct (Rgtb (pl_nomWidth c) (pl_maxBack c)) eqn:E2; [discriminate|].
  destruct (Rgeb (pl_minAngle c) (pl_maxAngle c)) eqn:E3; [discriminate|]. unfold Rgtb, Rgeb in *. apply Rltb_false in E1, E2. apply Rleb_false in E3.
  destruct (v_satOk e) eqn:E4; [|discriminate]. cbn [negb] in H.
  destruct (init_planner c e init tend lfp rfp) as [[i sol]|] eqn:Ei; [|discriminate].
  destruct (ft_getLast (stance_of (i_swingLeft i) (i_left i) (i_right i))) as [prev0|] eqn:Ep.
  2:{ unfold search_steps in H. change (if i_swingLeft i then i_right i else i_left i) with (stance_of (i_swingLeft i) (i_left i) (i_right i)) in H. rewrite Ep in H. discriminate. }
  destruct (init_facts _ _ _ _ _ _ _ _ _ Nl Nr Ei Ep) as (F1 & F2 & _ & _ & F5 & F6 & F7 & _).
  constructor; auto; try lra. destruct F5 as [(N & A & B)|(A & B & _)].
  - right. rewrite A in F6. rewrite B in F7. destruct N; intuition congruence.
  - left. split; [exact A|]. split; [exact B|]. intros Ek Ev. unfold init_planner, init_state, feet_state in Ei. rewrite !fsteps_last in Ei.
    change (fsteps (pl_foot c true lfp)) with (fp_steps lfp) in Ei. change (fsteps (pl_foot c false rfp)) with (fp_steps rfp) in Ei. rewrite A, B, Ek, Ev in Ei. discriminate.
Qed.
