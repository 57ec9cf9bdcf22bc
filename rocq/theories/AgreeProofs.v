(** The planner lets the feet move in turns, and the generator orders the steps accordingly. *)
From Coq Require Import String Reals Lra Lia ZArith List Bool Sorting.Sorted Sorting.Permutation.
From Verif Require Import Prelude FootPrint FootPrintSpec UnicycleFoot PlannerSearch PlannerSpec Planner PlannerProofs PlannerProofs2 PlannerProofs3 PlannerProofs4 EndToEndSpec EndToEndProofs
  GenPhases GenSpec GenProofs GenProofs2 GenProofs3 ZMP ZMPSpec AgreeSpec.
Import ListNotations.
Open Scope R_scope.
Notation Forall := List.Forall.

Lemma plan_turns : forall c e fuel lfp rfp init tend l' r' sw' sl', good_cfg c -> 0 < pl_minT c ->
  nonneg_times (fp_steps lfp) -> nonneg_times (fp_steps rfp) -> fresh (fp_steps lfp) (fp_steps rfp) ->
  compute_new_steps c e fuel lfp rfp init tend = PDone l' r' sw' sl' ->
  in_turns (fp_steps (ft_fp l')) (fp_steps (ft_fp r')).
Proof.
  intros c e fuel lfp rfp init tend l' r' sw' sl' [G1 G2 G3 G4] Hm Nl Nr Fr H.
  unfold compute_new_steps in H.
  destruct (Rgtb _ _); [discriminate|]. destruct (Rgtb _ _); [discriminate|]. destruct (Rgeb _ _); [discriminate|]. destruct (negb _); [discriminate|].
  destruct (init_planner c e init tend lfp rfp) as [[i sol]|] eqn:Ei; [|discriminate].
  destruct (ft_getLast (stance_of (i_swingLeft i) (i_left i) (i_right i))) as [prev0|] eqn:Ep.
  2:{ unfold search_steps in H. change (if i_swingLeft i then i_right i else i_left i) with (stance_of (i_swingLeft i) (i_left i) (i_right i)) in H. rewrite Ep in H. discriminate. }
  destruct (init_facts _ _ _ _ _ _ _ _ _ Nl Nr Ei Ep) as (F1 & F2 & F3 & F4 & F5 & F6 & F7 & F8 & F9).
  pose proof (init_first _ _ _ _ _ _ _ _ Ei) as [I1 I2].
  assert (One : exists a b, fsteps (i_left i) = [a] /\ fsteps (i_right i) = [b] /\ (if i_swingLeft i then st_time a <= st_time b else st_time b <= st_time a)).
  { destruct F5 as [(_ & A & B)|(A & B & a & b & A1 & B1 & A2 & B2 & _)].
    - destruct Fr as [[E1 E2]|(a & b & E1 & E2)].
      + exfalso. rewrite E1 in A. rewrite E2 in B. rewrite fsteps_last in Ep. unfold stance_of in Ep. destruct (i_swingLeft i); [rewrite B in Ep|rewrite A in Ep]; discriminate.
      + exists a, b. rewrite A, B. split; [exact E1|]. split; [exact E2|]. destruct (I2 a b E1 E2) as [J1 J2].
        destruct (Req_dec (st_time a) (st_time b)) as [Q|Q]; [destruct (i_swingLeft i); lra|]. destruct (J2 Q) as [_ ->].
        destruct (Rltb (st_time a) (st_time b)) eqn:Lt; [apply Rltb_true in Lt|apply Rltb_false in Lt]; lra.
    - exists a, b. rewrite A1, B1. repeat split; auto. destruct (i_swingLeft i); lra. }
  destruct One as (a & b & Ea & Eb & Or).
  assert (Ta : st_time a <= init) by (apply F6; rewrite Ea; reflexivity). assert (Tb : st_time b <= init) by (apply F7; rewrite Eb; reflexivity).
  assert (Epr : prev0 = if i_swingLeft i then b else a).
  { rewrite fsteps_last in Ep. unfold stance_of in Ep. destruct (i_swingLeft i); [rewrite Eb in Ep|rewrite Ea in Ep]; injection Ep as <-; reflexivity. }
  assert (Hpt : st_time prev0 <= init) by (rewrite Epr; destruct (i_swingLeft i); auto).
  pose proof F3 as (P1 & _). pose proof F4 as (Q1 & _). simpl in P1, Q1.
  apply search_spec with (prev0 := prev0) in H; simpl; auto; try lra.
  destruct H as (adds & term & S1 & _ & S3 & _ & _ & _ & _ & S8). simpl in S1, S3.
  assert (Hc : chain (paced init (pl_minT c)) (i_swingLeft i) prev0 (adds ++ term)).
  { apply chain_app2. split.
    - eapply chain_impl; [|exact S1]. intros sw x y (_ & _ & A & B & _). split; [lra|exact B].
    - eapply chain_impl; [|exact S3]. unfold nominal_after. intros sw x y P. pose proof (Rmax_l init (st_time x)); pose proof (Rmax_r init (st_time x)). split; lra. }
  assert (G0 : 0 <= pl_minT c) by lra. pose proof (paced_nth _ _ _ _ _ G0 Hc) as N.
  change (fp_steps (ft_fp l')) with (fsteps l'). change (fp_steps (ft_fp r')) with (fsteps r').
  destruct S8 as [(Ne & _ & E1 & E2)|(E0 & Sy)].
  - exists a, b, (i_swingLeft i), (adds ++ term). rewrite E1, E2, Ea, Eb. split; [reflexivity|]. split; [reflexivity|]. split; [exact Or|]. split.
    + intros k x Hx. destruct (N k x Hx) as (_ & A & _). lra.
    + intros j k x y Hj Hx Hy. destruct (N k y Hy) as (_ & _ & A). pose proof (A j x Hj Hx). lra.
  - destruct Sy as (a0 & b0 & a' & b' & B1 & B2 & B3 & B4 & T1 & T2 & R1 & R2 & _).
    rewrite Ea in R1. rewrite Eb in R2. cbn [removelast] in R1, R2.
    assert (One : forall (l : list step) x, last_opt l = Some x -> removelast l = [] -> l = [x]).
    { intros [|y [|z l]] x X Y; try discriminate. injection X as <-. reflexivity. }
    rewrite (One _ _ B3 R1), (One _ _ B4 R2). exists a', b', true, []. cbn [deal fst snd]. split; [reflexivity|]. split; [reflexivity|]. split; [lra|].
    split; [intros [|k] x X; discriminate|intros j [|k] x y _ _ X; discriminate].
Qed.

(** ** The order of the steps *)
Lemma nth_sorted : forall (ord : list tstep) i j x y, StronglySorted tle ord -> (i < j)%nat -> nth_error ord i = Some x -> nth_error ord j = Some y -> tle x y.
Proof.
  intros ord i j x y H. revert i j. induction H as [|z ord H IH F]; intros i j L A B; [destruct i; discriminate|].
  destruct j as [|j]; [lia|]. cbn in B. destruct i as [|i].
  - injection A as <-. rewrite List.Forall_forall in F. apply F. eapply nth_error_In; eauto.
  - cbn in A. apply (IH i j); auto. lia.
Qed.

Lemma turns_alternate : forall left right srt ord, in_turns (fp_steps left) (fp_steps right) -> sort_result (fp_steps left) (fp_steps right) srt ->
  named left -> named right -> fp_name left <> fp_name right -> order_steps srt = Ok ord -> alternating (tl ord).
Proof.
  intros left right srt ord (a & b & sw & all & El & Er & Or & Fst & Inc) [Pm Sd] Nl Nr Nn Ho.
  assert (En : enumerates (fp_steps left) (fp_steps right) ord).
  { eapply enumerates_perm; [exact (order_perm _ _ Ho)|]. eapply enumerates_perm; [apply Permutation_sym; exact Pm|apply all_steps_enumerates]. }
  pose proof (order_sorted _ _ Sd Ho) as Sd'. destruct En as [ND En].
  set (par := fun c : bool => if Bool.eqb c sw then 0%nat else 1%nat).
  assert (Cases : forall c i s, In (MkT c i s) ord -> (i = 0%nat /\ s = (if c then a else b)) \/ exists j, i = S j /\ nth_error all (2 * j + par c) = Some s).
  { intros c i s Hi. apply En in Hi. unfold foot_list in Hi. rewrite El, Er in Hi. destruct i as [|j]; [left; destruct c; injection Hi as <-; auto|right]. exists j. split; auto.
    unfold par. rewrite <- deal_nth. destruct c; exact Hi. }
  assert (Back : forall m x, nth_error all m = Some x -> exists p c j, nth_error ord p = Some (MkT c (S j) x) /\ m = (2 * j + par c)%nat).
  { intros m x Hx. destruct (Nat.Even_or_Odd m) as [[j E]|[j E]].
    - destruct (In_nth_error ord (MkT sw (S j) x)) as (p & Hp); [|exists p, sw, j; split; auto; unfold par; rewrite Bool.eqb_reflx; lia].
      apply En. unfold foot_list. rewrite El, Er. pose proof (deal_nth all sw sw j) as Q. rewrite Bool.eqb_reflx in Q. replace (2 * j + 0)%nat with m in Q by lia. rewrite Hx in Q. destruct sw; exact Q.
    - assert (Hb : Bool.eqb (negb sw) sw = false) by (destruct sw; reflexivity).
      destruct (In_nth_error ord (MkT (negb sw) (S j) x)) as (p & Hp); [|exists p, (negb sw), j; split; auto; unfold par; rewrite Hb; lia].
      apply En. unfold foot_list. rewrite El, Er. pose proof (deal_nth all sw (negb sw) j) as Q. rewrite Hb in Q. replace (2 * j + 1)%nat with m in Q by lia. rewrite Hx in Q. destruct sw; exact Q. }
  assert (Ev : forall c c' j j', S (2 * j + par c) = (2 * j' + par c')%nat -> c <> c').
  { intros c c' j j' E ->. lia. }
  assert (Za : exists p, nth_error ord p = Some (MkT true 0 a)) by (apply In_nth_error, En; cbn; rewrite El; reflexivity).
  assert (Zb : exists p, nth_error ord p = Some (MkT false 0 b)) by (apply In_nth_error, En; cbn; rewrite Er; reflexivity).
  assert (Inj : forall p q c i s s', nth_error ord p = Some (MkT c i s) -> nth_error ord q = Some (MkT c i s') -> p = q).
  { intros p q c i s s' Hp Hq. eapply (proj1 (NoDup_nth_error _) ND); [rewrite map_length; apply nth_error_Some; congruence|]. rewrite !nth_error_map, Hp, Hq. reflexivity. }
  (* the first steps come first *)
  assert (Early : forall p t, nth_error ord p = Some t -> (2 <= p)%nat -> exists j, t_idx t = S j /\ nth_error all (2 * j + par (t_left t)) = Some (t_step t)).
  { intros p [c i s] Hp L. cbn [t_idx t_left t_step]. destruct (Cases c i s (nth_error_In _ _ Hp)) as [[-> ->]|Q]; [exfalso|exact Q].
    destruct (nth_error ord 0) as [[c0 i0 s0]|] eqn:E0; [|apply nth_error_None in E0; apply nth_error_None with (n := p) in E0 || (assert (p < length ord)%nat by (apply nth_error_Some; congruence); lia)].
    destruct (nth_error ord 1) as [[c1 i1 s1]|] eqn:E1; [|apply nth_error_None in E1; assert (p < length ord)%nat by (apply nth_error_Some; congruence); lia].
    assert (Z : forall q cq iq sq, nth_error ord q = Some (MkT cq iq sq) -> (q < p)%nat -> iq = 0%nat).
    { intros q cq iq sq Hq Lq. destruct (Cases cq iq sq (nth_error_In _ _ Hq)) as [[-> _]|(j & -> & Hj)]; auto. exfalso.
      pose proof (nth_sorted _ _ _ _ _ Sd' Lq Hq Hp) as T. unfold tle in T. cbn in T. destruct (Fst _ _ Hj). destruct c; lra. }
    assert (i0 = 0%nat) by (eapply Z; eauto; lia). assert (i1 = 0%nat) by (eapply Z; eauto; lia). subst i0 i1.
    destruct (Bool.bool_dec c0 c1) as [->|D01]; [pose proof (Inj _ _ _ _ _ _ E0 E1); lia|].
    destruct (Bool.bool_dec c c0) as [->|D0]; [pose proof (Inj _ _ _ _ _ _ E0 Hp); lia|]. destruct (Bool.bool_dec c c1) as [->|D1]; [pose proof (Inj _ _ _ _ _ _ E1 Hp); lia|].
    destruct c, c0, c1; congruence. }
  intros k t t' Ht Ht'.
  assert (At : nth_error ord (S k) = Some t) by (destruct ord; [destruct k; discriminate|exact Ht]).
  assert (At' : nth_error ord (S (S k)) = Some t') by (destruct ord; [destruct k; discriminate|exact Ht']).
  clear Ht Ht'. destruct (Early _ _ At' ltac:(lia)) as (j' & I' & A').
  destruct k as [|k].
  - (* the foot that starts *)
    assert (J0 : (2 * j' + par (t_left t'))%nat = 0%nat).
    { destruct (2 * j' + par (t_left t'))%nat as [|m] eqn:Em; auto. exfalso. destruct (nth_error all 0) as [x|] eqn:Ex; [|apply nth_error_None in Ex; assert (S m < length all)%nat by (apply nth_error_Some; congruence); lia].
      pose proof (Inc 0%nat (S m) x (t_step t') ltac:(lia) Ex A') as Lt. destruct (Back 0%nat x Ex) as (p & c & j & Hp & _).
      destruct (Nat.lt_trichotomy p 2) as [Q|[->|Q]].
      - destruct (Cases c (S j) x (nth_error_In _ _ Hp)) as [[Z _]|_]; [discriminate|].
        assert (Two : forall q, (q < 2)%nat -> exists cq sq, nth_error ord q = Some (MkT cq 0 sq)).
        { destruct Za as (pa & Pa), Zb as (pb & Pb).
          assert (pa < 2)%nat by (destruct (Nat.lt_ge_cases pa 2); auto; destruct (Early _ _ Pa ltac:(auto)) as (? & Z & _); discriminate).
          assert (pb < 2)%nat by (destruct (Nat.lt_ge_cases pb 2); auto; destruct (Early _ _ Pb ltac:(auto)) as (? & Z & _); discriminate).
          assert (pa <> pb) by (intros ->; congruence).
          intros q Hq. destruct (Nat.eq_dec q pa) as [->|]; [eauto|]. assert (q = pb) by lia. subst q. eauto. }
        destruct (Two p Q) as (cq & sq & E). congruence.
      - rewrite At' in Hp. injection Hp as ->. cbn in Lt. lra.
      - pose proof (nth_sorted _ _ _ _ _ Sd' Q At' Hp) as T. unfold tle in T. cbn in T. lra. }
    assert (Lt' : t_left t' = sw) by (unfold par in J0; destruct (Bool.eqb (t_left t') sw) eqn:E; [apply Bool.eqb_prop; exact E|lia]).
    rewrite Lt'. clear J0 j' I' A'.
    destruct Za as (pa & Pa), Zb as (pb & Pb).
    assert (pa < 2)%nat by (destruct (Nat.lt_ge_cases pa 2); auto; destruct (Early _ _ Pa ltac:(auto)) as (? & Z & _); discriminate).
    assert (pb < 2)%nat by (destruct (Nat.lt_ge_cases pb 2); auto; destruct (Early _ _ Pb ltac:(auto)) as (? & Z & _); discriminate).
    assert (Nab : pa <> pb) by (intros ->; congruence).
    destruct (Req_dec (st_time a) (st_time b)) as [Eq|Ne].
    + (* together: order_steps looks at the names *)
      destruct ord as [|x [|y [|z rest]]]; try discriminate. cbn in At, At'. injection At as ->. injection At' as ->.
      assert (Txy : st_time (t_step x) = st_time (t_step t)).
      { destruct pa as [|[|]], pb as [|[|]]; try lia; cbn in Pa, Pb; injection Pa as ->; injection Pb as ->; cbn; auto. }
      assert (Name : forall u, In u (x :: t :: t' :: rest) -> st_name (t_step u) = fp_name (if t_left u then left else right)).
      { intros [c i s] Hu. apply En in Hu. cbn [t_step t_left]. destruct c; cbn in Hu; apply nth_error_In in Hu; [apply Nl|apply Nr]; exact Hu. }
      intros C. unfold order_steps in Ho. destruct srt as [|p [|q tl]]; try discriminate. destruct (adjacent_equal tl); [discriminate|].
      destruct tl as [|c tl]; [injection Ho as _ _ Ho; discriminate|].
      destruct (Reqb (st_time (t_step p)) (st_time (t_step q))) eqn:Q1; cbn [andb] in Ho.
      * destruct (String.eqb (st_name (t_step q)) (st_name (t_step c))) eqn:Q2.
        -- apply String.eqb_eq in Q2. injection Ho as -> -> -> ->.
           assert (Nx : st_name (t_step x) = fp_name (if t_left x then left else right)) by (apply Name; left; auto). assert (Nt' : st_name (t_step t') = fp_name (if t_left t' then left else right)) by (apply Name; right; right; left; auto).
           rewrite Nx, Nt' in Q2. rewrite Lt' in Q2. rewrite <- C in Q2.
           assert (Xt : t_left x <> t_left t). { destruct pa as [|[|]], pb as [|[|]]; try lia; cbn in Pa, Pb; injection Pa as ->; injection Pb as ->; cbn; congruence. }
           destruct (t_left x), (t_left t); try congruence; symmetry in Q2; congruence.
        -- apply String.eqb_neq in Q2. injection Ho as -> -> -> ->. apply Q2. rewrite (Name t), (Name t') by (cbn; auto). rewrite Lt', C. reflexivity.
      * apply Reqb_false in Q1. injection Ho as -> -> -> ->. congruence.
    + destruct pa as [|[|]], pb as [|[|]]; try lia.
      * pose proof (nth_sorted _ _ _ _ _ Sd' (Nat.lt_0_succ 0) Pa Pb) as T. unfold tle in T. cbn in T. rewrite At in Pb. injection Pb as ->. cbn. destruct sw; [discriminate|lra].
      * pose proof (nth_sorted _ _ _ _ _ Sd' (Nat.lt_0_succ 0) Pb Pa) as T. unfold tle in T. cbn in T. rewrite At in Pa. injection Pa as ->. cbn. destruct sw; [lra|discriminate].
  - destruct (Early _ _ At ltac:(lia)) as (j & I & A). set (m := (2 * j + par (t_left t))%nat) in *. set (m' := (2 * j' + par (t_left t'))%nat) in *.
    assert (Tt : tle t t') by (apply (nth_sorted ord (S (S k)) (S (S (S k)))); auto).
    unfold tle in Tt.
    assert (Nm : m <> m').
    { intros E. assert (E1 : t_left t = t_left t' /\ j = j') by (unfold m, m', par in E; destruct (t_left t), (t_left t'), sw; cbn [Bool.eqb] in E; split; auto; lia). destruct E1 as [E1 <-].
      assert (Z : S (S k) = S (S (S k))); [|lia]. apply (Inj _ _ (t_left t) (t_idx t) (t_step t) (t_step t')).
      - rewrite At. destruct t; reflexivity.
      - rewrite At', E1, I, <- I'. destruct t'; reflexivity. }
    assert (Lm : (m < m')%nat). { destruct (Nat.lt_ge_cases m m'); auto. pose proof (Inc m' m _ _ ltac:(lia) A' A). lra. }
    destruct (Nat.eq_dec m' (S m)) as [E|E]; [apply (Ev _ _ j j'); symmetry; exact E|exfalso].
    destruct (nth_error all (S m)) as [x|] eqn:Ex; [|apply nth_error_None in Ex; assert (m' < length all)%nat by (apply nth_error_Some; congruence); lia].
    pose proof (Inc m (S m) _ _ ltac:(lia) A Ex) as L1. pose proof (Inc (S m) m' _ _ ltac:(lia) Ex A') as L2.
    destruct (Back (S m) x Ex) as (p & c & i & Hp & _).
    destruct (Nat.lt_trichotomy p (S (S k))) as [Q|[->|Q]].
    + pose proof (nth_sorted _ _ _ _ _ Sd' Q Hp At) as T. unfold tle in T. cbn in T. lra.
    + rewrite At in Hp. injection Hp as ->. cbn in L1. lra.
    + destruct (Nat.eq_dec p (S (S (S k)))) as [->|Nq]; [rewrite At' in Hp; injection Hp as ->; cbn in L2; lra|].
      pose proof (nth_sorted ord (S (S (S k))) p t' _ Sd' ltac:(lia) At' Hp) as T. unfold tle in T. cbn in T. lra.
Qed.
Lemma alternating_tl : forall l, alternating l -> alternating (tl l).
Proof. intros [|x l] H k t t' A B; [destruct k; discriminate|]. exact (H (S k) t t' A B). Qed.
