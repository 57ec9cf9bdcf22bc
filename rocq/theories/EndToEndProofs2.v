(** Names of planned steps; success of the plug-ins on a walk; sessions. *)
From Coq Require Import String Reals Lra Lia ZArith List Bool Sorted.
From Verif Require Import Prelude FootPrint FootPrintSpec FootPrintProofs UnicycleFoot Ellipse Optimization FootSpec FootProofs PlannerSearch PlannerSpec Planner
  PlannerProofs PlannerProofs2 PlannerProofs3 PlannerProofs6 GenPhases GenSpec ZMPSpec Generator EndToEndSpec EndToEndProofs.
Import ListNotations.
Open Scope R_scope.

(** ** Names *)
Definition fnamed (f : foot) : Prop := named (ft_fp f).
Lemma named_add : forall pos a t fp fp' ok, named fp -> fp_addStep pos a t fp = (fp', ok) -> named fp' /\ fp_name fp' = fp_name fp.
Proof.
  intros pos a t fp fp' ok N H. unfold fp_addStep in H. destruct (Rltb t 0); injection H as <- _; [auto|]. split; [|reflexivity].
  intros s Hs. cbn in *. apply in_app_or in Hs. destruct Hs as [Hs|[<-|[]]]; [apply N; exact Hs|reflexivity].
Qed.
Lemma fnamed_from : forall u t f f' ok, fnamed f -> ft_addFromUnicycle u t f = (f', ok) -> fnamed f'.
Proof.
  intros u t f f' ok N H. unfold ft_addFromUnicycle in H. destruct (negb _); [injection H as <- _; auto|].
  destruct (fp_addStep _ _ _ _) as [fp' o] eqn:E. injection H as <- _. exact (proj1 (named_add _ _ _ _ _ _ N E)).
Qed.
Lemma fnamed_parallel : forall o t f f' ok, fnamed f -> ft_addParallel o t f = (f', ok) -> fnamed f'.
Proof.
  intros o t f f' ok N H. unfold ft_addParallel in H. destruct (Rltb t 0); [injection H as <- _; auto|]. destruct (ft_getLast o); [|injection H as <- _; auto].
  destruct (fp_addStep _ _ _ _) as [fp' k] eqn:E. injection H as <- _. exact (proj1 (named_add _ _ _ _ _ _ N E)).
Qed.
Definition snamed (s : sst) : Prop := fnamed (s_left s) /\ fnamed (s_right s).
Lemma snamed_swing : forall s, snamed s -> fnamed (swingOf s).
Proof. intros s [A B]. unfold swingOf. destruct (s_swingLeft s); auto. Qed.
Lemma snamed_set : forall s f, snamed s -> fnamed f -> fnamed (fst (set_swing s f)) /\ fnamed (snd (set_swing s f)).
Proof. intros s f [A B] F. unfold set_swing. destruct (s_swingLeft s); auto. Qed.
Lemma body_named : forall c s s', snamed s -> body c s = Ok s' -> snamed s'.
Proof.
  intros c s s' N H. unfold body in H. destruct (Rgeb _ _ && _); [|injection H as <-; auto]. destruct (negb _); [|injection H as <-; exact N].
  destruct (Rgtb _ _ || _).
  - assert (P : forall s1, (if Rgtb (s_tOpt s) 0 then place_best c s else place_parallel c s) = Ok s1 -> snamed s1).
    { intros s1 P. destruct (Rgtb _ _).
      - unfold place_best in P. destruct (ft_addFromUnicycle _ _ _) as [f ok] eqn:E. destruct ok; [|discriminate]. cbn [negb] in P.
        pose proof (snamed_set s f N (fnamed_from _ _ _ _ _ (snamed_swing s N) E)) as Q. destruct (set_swing s f) as [l r]. injection P as <-. exact Q.
      - unfold place_parallel in P. destruct (ft_stateFromStep _ _); [|discriminate]. destruct (negb _); [|injection P as <-; exact N].
        destruct (ft_addParallel _ _ _) as [f ok] eqn:E. destruct ok; [|discriminate]. cbn [negb] in P.
        pose proof (snamed_set s f N (fnamed_parallel _ _ _ _ _ (snamed_swing s N) E)) as Q. destruct (set_swing s f) as [l r]. injection P as <-. exact Q. }
    destruct (if Rgtb (s_tOpt s) 0 then _ else _) as [s1| |]; try discriminate. specialize (P s1 eq_refl). cbn [rbind] in H. unfold refresh_prev in H.
    destruct (ft_getLast _); [|discriminate]. injection H as <-. exact P.
  - unfold try_sample in H. destruct (get_rPl _ _ _ _); [|discriminate]. destruct (get_rel _ _ _ _); [|discriminate]. destruct (ft_posFromUnicycle _ _); [|discriminate].
    destruct (Rgtb _ _ && _); [|injection H as <-; auto]. destruct (Rltb _ _ || _); injection H as <-; auto.
Qed.
Lemma loop_named : forall c fuel s s', snamed s -> run_loop c fuel s = LDone s' -> snamed s'.
Proof.
  intros c fuel. induction fuel as [|f IH]; intros s s' N H; cbn [run_loop] in H; (destruct (Rleb _ _); [|injection H as <-; auto]); [discriminate|].
  unfold iter1 in H. destruct (body c s) as [s1| |] eqn:E; cbn [rbind] in H; try discriminate. apply IH in H; auto. exact (body_named _ _ _ N E).
Qed.
Lemma terminal_named : forall c sw l r u l' r', fnamed l -> fnamed r -> terminal_step c sw l r u = Ok (l', r') -> fnamed l' /\ fnamed r'.
Proof.
  intros c sw l r u l' r' N1 N2 H. unfold terminal_step in H. destruct (ft_getLast _); [|discriminate].
  destruct (get_rPl _ _ _ _); [|discriminate]. destruct (get_rel _ _ _ _); [|discriminate]. destruct (ft_posFromUnicycle _ _); [|discriminate].
  destruct (_ && _ && _).
  - destruct (ft_addFromUnicycle u _ (if sw then l else r)) as [f1 ok1] eqn:E1. destruct ok1; [|discriminate]. cbn [negb] in H.
    destruct (ft_addFromUnicycle u _ (if sw then r else l)) as [f2 ok2] eqn:E2. destruct ok2; [|discriminate]. cbn [negb] in H.
    assert (fnamed f1) by (eapply fnamed_from; [|exact E1]; destruct sw; auto). assert (fnamed f2) by (eapply fnamed_from; [|exact E2]; destruct sw; auto).
    destruct sw; injection H as <- <-; auto.
  - destruct (ft_stateFromStep _ _); [|discriminate]. destruct (negb _); [|injection H as <- <-; auto].
    destruct (ft_addParallel _ _ _) as [f1 ok1] eqn:E1. destruct ok1; [|discriminate]. cbn [negb] in H.
    assert (fnamed f1) by (eapply fnamed_parallel; [|exact E1]; destruct sw; auto). destruct sw; injection H as <- <-; auto.
Qed.
Lemma clearLast_named : forall fp, named fp -> named (fp_clearLast fp).
Proof.
  intros fp N. unfold fp_clearLast. destruct (Nat.eqb _ _); auto. intros s Hs. cbn in *. apply N.
  destruct (fp_steps fp) as [|x l]; [destruct Hs|]. rewrite (app_removelast_last x) by discriminate. apply in_or_app. left. exact Hs.
Qed.
Lemma sync_named : forall l r rs sl l' r' sl', named l -> named r -> sync_feet l r rs sl = Ok (l', r', sl') -> named l' /\ named r'.
Proof.
  intros l r rs sl l' r' sl' N1 N2 H. unfold sync_feet in H. destruct (fp_getLast l); [|discriminate]. destruct (fp_getLast r); [|discriminate].
  destruct (Rgtb _ _); [|destruct (Rltb _ _)].
  - destruct (fp_addStep _ _ _ _) as [x ok] eqn:E. injection H as <- <- _. split; auto. apply (named_add _ _ _ _ _ _ (clearLast_named _ N2) E).
  - destruct (fp_addStep _ _ _ _) as [x ok] eqn:E. injection H as <- <- _. split; auto. apply (named_add _ _ _ _ _ _ (clearLast_named _ N1) E).
  - injection H as <- <- _. auto.
Qed.
Lemma search_named : forall c fuel at_ rs l r sw fs sl l' r' sw' sl', fnamed l -> fnamed r -> search_steps c fuel at_ rs l r sw fs sl = PDone l' r' sw' sl' -> fnamed l' /\ fnamed r'.
Proof.
  intros c fuel at_ rs l r sw fs sl l' r' sw' sl' N1 N2 H. unfold search_steps in H. destruct (ft_getLast _); [|discriminate].
  destruct (run_loop _ _ _) as [sx| |] eqn:E; try discriminate. apply loop_named in E; [|split; auto]. destruct E as [E1 E2].
  destruct (if at_ then _ else _) as [[a b]| |] eqn:T; try discriminate.
  assert (A : fnamed a /\ fnamed b) by (destruct at_; [eapply terminal_named; [| |exact T]; auto|injection T as <- <-; auto]). destruct A as [A1 A2].
  destruct (_ && _); [|injection H as <- <- _ _; auto]. destruct (sync_feet _ _ _ _) as [[[x y] z]| |] eqn:Sy; try discriminate. injection H as <- <- _ _.
  exact (sync_named _ _ _ _ _ _ _ A1 A2 Sy).
Qed.
Lemma plan_named : forall c e fuel l r init tend l' r' sw sl, named l -> named r -> compute_new_steps c e fuel l r init tend = PDone l' r' sw sl ->
  named (ft_fp l') /\ named (ft_fp r').
Proof.
  intros c e fuel l r init tend l' r' sw sl N1 N2 H. unfold compute_new_steps in H.
  destruct (Rgtb _ _); [discriminate|]. destruct (Rgtb _ _); [discriminate|]. destruct (Rgeb _ _); [discriminate|]. destruct (negb _); [discriminate|].
  destruct (init_planner c e init tend l r) as [[i sol]|] eqn:Ei; [|discriminate].
  assert (A : fnamed (i_left i) /\ fnamed (i_right i)).
  { unfold init_planner in Ei. destruct (init_state _ _ _ _ _) as [i'|] eqn:Es; [|discriminate]. destruct (Rleb _ _); [discriminate|]. destruct (v_integ _ _); [|discriminate]. injection Ei as -> _.
    unfold init_state in Es. destruct (feet_state _ _ _ _ _) as [[i0 tf]|] eqn:Ef; [|discriminate].
    match type of Es with (if ?b then _ else _) = _ => destruct b end; [discriminate|]. injection Es as <-. cbn [i_left i_right].
    assert (M1 : fnamed (pl_foot c true l)) by exact N1. assert (M2 : fnamed (pl_foot c false r)) by exact N2.
    set (L := pl_foot c true l) in *. set (Q := pl_foot c false r) in *. clearbody L Q. unfold feet_state in Ef.
    destruct (ft_getLast L), (ft_getLast Q).
    - destruct (Reqb _ _); [destruct (if pl_startLeft c then _ else _); [|discriminate]|destruct (Rltb _ _); (destruct (ft_stateFromStep _ _); [|discriminate])]; injection Ef as <- _; auto.
    - destruct (ft_stateFromStep _ _); [|discriminate]. injection Ef as <- _; auto.
    - destruct (ft_stateFromStep _ _); [|discriminate]. injection Ef as <- _; auto.
    - match type of Ef with match ?x with _ => _ end = _ => destruct x as [uu|] end; [|discriminate]. injection Ef as <- _. cbn [i_left i_right].
      split; [destruct (ft_addFromUnicycle uu init L) eqn:E|destruct (ft_addFromUnicycle uu init Q) eqn:E]; cbn [fst]; eapply fnamed_from; [|exact E| |exact E]; auto. }
  destruct A as [A1 A2]. exact (search_named _ _ _ _ _ _ _ _ _ _ _ _ _ A1 A2 H).
Qed.
