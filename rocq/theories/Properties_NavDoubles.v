(** C102: navigation with doubles, or any other arithmetic. *)
From Coq Require Import Reals ZArith Lra Lia List Bool PeanoNat.
From Flocq Require Import Core IEEE754.BinarySingleNaN.
From Verif Require Import Prelude UnicycleFoot Controllers ControlSpec Navigation Doubles DoublesSpec DoublesProofs DoublesProofs2
  CtrlDoubles CtrlDoublesSpec CtrlDoublesProofs NavDoublesSpec NavDoublesProofs.
Import ListNotations.
Open Scope R_scope.

(** Whatever the arithmetic does, the pose in use is one of the last accepted path, never its first one. *)
Theorem C102_target_in_path : forall (N : Type) (A : arith N) (M : maths N) ops n outs p,
  d_run A M (d_new A) ops = Ok (n, outs) -> used_path ops = Some p ->
  dn_path n = p /\ (1 <= dn_idx n < length p)%nat.
Proof. intros N A M ops n outs p H U. apply drun_inv in H as [_ _ P]. rewrite U in P. destruct P as (P1 & P2 & _). auto. Qed.
Print Assumptions C102_target_in_path.

(** Only queries move to another pose, forward and one at a time. *)
Theorem C102_monotone : forall (N : Type) (A : arith N) (M : maths N) ops n n' outs, d_run A M n ops = Ok (n', outs) ->
  forallb (fun o => negb (gives_path o)) ops = true ->
  dn_path n' = dn_path n /\ (dn_idx n <= dn_idx n' <= dn_idx n + asked ops)%nat.
Proof.
  intros N A M. induction ops as [|o ops IH]; intros n n' outs H G; cbn [d_run forallb] in H, G.
  - injection H as <- <-. split; [reflexivity|cbn; lia].
  - apply andb_prop in G as [G1 G2]. destruct (d_call A M n o) as [[n1 a]| |] eqn:E; cbn [rbind fst snd] in H; try discriminate.
    destruct (d_run A M n1 ops) as [[n2 o2]| |] eqn:E2; cbn [rbind fst snd] in H; try discriminate. injection H as <- <-.
    apply IH in E2 as [P2 I2]; auto. unfold asked in *. cbn [filter].
    assert (K : dn_path n1 = dn_path n /\ (dn_idx n <= dn_idx n1 <= dn_idx n + (if asks o then 1 else 0))%nat).
    { destruct o as [t p| |q|l w|g|g|g|d|t|c]; cbn [d_call] in E.
      - injection E as <- <-; cbn; split; [reflexivity|lia].
      - destruct (d_query A M n) as [[m c]| |] eqn:Eq; cbn [rbind fst snd] in E; try discriminate. injection E as <- <-. apply dquery_shapes in Eq. cbn [asks].
        destruct Eq as [_ ->|_ _ ->|_ Hf Hp|eta _ Hf He Hlt Hne Hp|eta _ Hf He Hge Hp]; try (cbn; split; [reflexivity|lia]).
        all: apply dplan_frame in Hp as ((_ & _ & _ & p4 & p5 & _) & _); cbn in *; rewrite p4, p5; split; [reflexivity|lia].
      - discriminate.
      - unfold d_done in E. injection E as <- <-. pose proof (sat_frame N A l w n) as F. cbv zeta in F. destruct F as (-> & -> & _). split; [reflexivity|lia].
      - unfold d_done in E. injection E as <- <-. pose proof (base_frame N A (sTurn g) n) as F. cbv zeta in F. destruct F as (-> & -> & _). split; [reflexivity|lia].
      - unfold d_done in E. injection E as <- <-. pose proof (base_frame N A (sBack g) n) as F. cbv zeta in F. destruct F as (-> & -> & _). split; [reflexivity|lia].
      - unfold d_done in E. injection E as <- <-. pose proof (base_frame N A (sSide g) n) as F. cbv zeta in F. destruct F as (-> & -> & _). split; [reflexivity|lia].
      - unfold d_done in E. injection E as <- <-. unfold d_setStep. destruct (a_eq A d (c0 A)); cbn; split; try reflexivity; lia.
      - injection E as <- <-; cbn; split; [reflexivity|lia].
      - injection E as <- <-; cbn; split; [reflexivity|lia]. }
    destruct K as [K1 K2]. split; [congruence|]. destruct (asks o); cbn [length]; lia.
Qed.
Print Assumptions C102_monotone.

(** At the last pose the commands stay zero until a path or another time step is given, whatever is measured. *)
Theorem C102_stays_stopped : forall (N : Type) (A : arith N) (M : maths N) ops n, arrived A n ->
  forallb (fun o => negb (gives_path o || gives_step o)) ops = true ->
  exists n' outs, d_run A M n ops = Ok (n', outs) /\ arrived A n' /\ List.Forall (stands A) outs.
Proof.
  intros N A M. induction ops as [|o ops IH]; intros n G F; cbn [forallb d_run] in F |- *.
  - exists n, []. auto.
  - apply andb_prop in F as [F1 F2].
    assert (K : exists n1 a, d_call A M n o = Ok (n1, a) /\ arrived A n1 /\ stands A a).
    { pose proof G as (G1 & (eta & G2 & G3) & G4). destruct o as [t p| |q|l w|g|g|g|d|t|c]; cbn [d_call].
      - do 2 eexists; split; [reflexivity|]. split; [exact G|exact I].
      - unfold d_query. destruct (a_lt A (dn_time n) (dn_until n)); cbn [rbind fst snd].
        + do 2 eexists; split; [reflexivity|]. split; [exact G|reflexivity].
        + unfold d_compute. rewrite G1, G2, G3. rewrite (proj2 (Nat.eqb_eq _ _) G4). cbn [rbind fst snd].
          do 2 eexists; split; [reflexivity|]. split; [|reflexivity]. repeat split; cbn; auto. exists eta. auto.
      - discriminate.
      - do 2 eexists; split; [reflexivity|]. split; [|exact I]. pose proof (sat_frame N A l w n) as Q. cbv zeta in Q. destruct Q as (q1 & q2 & q3 & q4 & _ & q6 & _).
        unfold arrived. rewrite q1, q2, q3, q4, q6. exact G.
      - do 2 eexists; split; [reflexivity|]. split; [|exact I]. pose proof (base_frame N A (sTurn g) n) as Q. cbv zeta in Q. destruct Q as (q1 & q2 & q3 & q4 & _ & q6 & _).
        unfold arrived. rewrite q1, q2, q3, q4, q6. exact G.
      - do 2 eexists; split; [reflexivity|]. split; [|exact I]. pose proof (base_frame N A (sBack g) n) as Q. cbv zeta in Q. destruct Q as (q1 & q2 & q3 & q4 & _ & q6 & _).
        unfold arrived. rewrite q1, q2, q3, q4, q6. exact G.
      - do 2 eexists; split; [reflexivity|]. split; [|exact I]. pose proof (base_frame N A (sSide g) n) as Q. cbv zeta in Q. destruct Q as (q1 & q2 & q3 & q4 & _ & q6 & _).
        unfold arrived. rewrite q1, q2, q3, q4, q6. exact G.
      - discriminate.
      - do 2 eexists; split; [reflexivity|]. split; [exact G|exact I].
      - do 2 eexists; split; [reflexivity|]. split; [exact G|exact I]. }
    destruct K as (n1 & a & -> & K1 & K2). destruct (IH n1 K1 F2) as (n2 & o2 & E & E1 & E2). cbn [rbind fst snd]. rewrite E. cbn [rbind fst snd].
    exists n2, (a :: o2). auto.
Qed.
Print Assumptions C102_stays_stopped.

(** With doubles: once a path and saturations were accepted and a pose was measured, every further call is defined
    if the angles are finite, whatever the positions, times and limits are and whatever cos, sin, atan2 and pow return. *)
Theorem C102_defined : forall sq c s at2 pre n outs p post, let M := ieee_maths sq c s at2 in
  d_run ieee M (d_new ieee) pre = Ok (n, outs) -> used_path pre = Some p -> limits_given (combine pre outs) -> pose_given pre ->
  angles (fun x => fin x = true) (pre ++ post) ->
  exists n' outs', d_run ieee M (d_new ieee) (pre ++ post) = Ok (n', outs ++ outs').
Proof.
  intros sq c s at2 pre n outs p post M H U L F (G1 & G2).
  assert (W : forall a, fin a = true -> fin (d_wrap ieee M a) = true) by (intros a Fa; unfold M; rewrite wrap64; apply wrap_fin, Fa).
  assert (D : forall a b, fin a = true -> fin b = true -> d_direction ieee (d_wrap ieee M (a_sub ieee a b)) <> UB) by (intros; apply finite_direction; auto).
  pose proof (history_armed _ _ _ _ _ _ _ H U L F) as AR.
  assert (PU : pure_n f64 (fun x => fin x = true) n).
  { apply (run_pure _ ieee M (fun x => fin x = true) W pre (d_new ieee) n outs H); [apply new_pure|]. split; [intros t q K|intros l q K]; [eapply G1|eapply G2]; apply in_app_iff; left; eauto. }
  destruct (armed_run _ ieee M (fun x => fin x = true) W D post n AR PU) as (n' & o' & E). { split; [intros t q K|intros l q K]; [eapply G1|eapply G2]; apply in_app_iff; right; eauto. }
  exists n', o'. rewrite drun_app, H, E. reflexivity.
Qed.
Print Assumptions C102_defined.

(** A command is zero, or turns with the speed of the saturations last accepted towards the wrapped difference. *)
Theorem C102_turning : forall sq c s at2 ops n outs n' k w, let M := ieee_maths sq c s at2 in
  List.Forall tame (setters ops) -> d_run ieee M (d_new ieee) ops = Ok (n, outs) -> d_query ieee M n = Ok (n', k) ->
  turning64 (combine ops outs) = Some w -> number w ->
  k = MkDC fzero fzero fzero \/
  exists st g, dn_state n = Some st /\ nth_error (dn_path n) (dn_idx n') = Some g /\
  let d := wrapped64 (fsub (d_th g) (d_th st)) in
  (le64 fzero d /\ eq64 (d_ang k) w \/ lt64 d fzero /\ eq64 (d_ang k) (fopp w)).
Proof.
  intros sq c s at2 ops n outs n' k w M T H Q E Nw. assert (Z : d_zero ieee = MkDC fzero fzero fzero) by (unfold d_zero; rewrite c0_zero; reflexivity).
  pose proof (limits_run sq c s at2 ops n outs T H) as (_ & LM). apply dquery_shapes in Q.
  assert (P : forall m, d_plan ieee M m = Ok n' -> dn_max m = dn_max n -> dn_state m = dn_state n -> dn_path m = dn_path n ->
    exists st g, dn_state n = Some st /\ nth_error (dn_path n) (dn_idx n') = Some g /\
    let d := wrapped64 (fsub (d_th g) (d_th st)) in
    (le64 fzero d /\ eq64 (d_ang (dn_des n')) w \/ lt64 d fzero /\ eq64 (d_ang (dn_des n')) (fopp w))).
  { intros m Hp H1 H2 H3. apply dplan_frame in Hp as ((_ & _ & _ & _ & p5 & _) & g & v & l & a & st & r & q1 & q2 & q3 & q4 & q5 & _).
    exists st, g. rewrite <- H2, <- H3, p5. split; auto. split; auto. rewrite H1 in q2. rewrite q2, E in LM. injection LM as LM. subst a.
    rewrite q5. exact (towards_turns sq c s at2 v l w st g r q4 Nw). }
  destruct Q as [_ _|_ _ _|_ Hf Hp|eta _ Hf He Hlt Hne Hp|eta _ Hf He Hge Hp]; [left; exact Z|left; exact Z| | |]; right; eapply P; eauto.
Qed.
Print Assumptions C102_turning.

(** With exact numbers the model is the one of Navigation.v. *)
Theorem C102_exact_model : forall ops,
  (do x <- nav_run nav_new ops; Ok (map out_of (snd x)))
  = (do x <- d_run reals exact_maths (d_new reals) (map op_of ops); Ok (snd x)).
Proof. intros ops. apply exact_run_nav, new_like. Qed.
Print Assumptions C102_exact_model.

(** ** The condition on the angles *)
Definition p64 (x a : f64) : dpose f64 := MkDP x fzero a.
Definition undefined {X : Type} (r : res X) : bool := match r with UB => true | _ => false end.
Lemma undefined_ub : forall X (r : res X), undefined r = true -> r = UB.
Proof. intros X [?| |] H; try discriminate. reflexivity. Qed.
Definition trip (a b : f64) : list (dop f64) := [DSat f1 f1; DPath [p64 fzero fzero; p64 f1 a]; DFeedback fzero (p64 fzero b)].

(** A NaN heading is accepted and makes the next query read an uninitialised variable. *)
Theorem C102_nan_refuted : exists pre, forall sq c s at2, let M := ieee_maths sq c s at2 in
  (exists n outs p, d_run ieee M (d_new ieee) pre = Ok (n, outs) /\ used_path pre = Some p /\ limits_given (combine pre outs)) /\ pose_given pre
  /\ d_run ieee M (d_new ieee) (pre ++ [DQuery]) = UB.
Proof.
  exists (trip fzero fnan). intros sq c s at2 M. split; [|split; [exists fzero, (p64 fzero fnan); right; right; left; reflexivity|apply undefined_ub; vm_compute; reflexivity]].
  assert (K : match d_run ieee M (d_new ieee) (trip fzero fnan) with Ok (_, DDone true :: _) => true | _ => false end = true) by (vm_compute; reflexivity).
  destruct (d_run ieee M (d_new ieee) (trip fzero fnan)) as [[n outs]| |]; try discriminate. exists n, outs. eexists. split; [reflexivity|]. split; [reflexivity|].
  exists f1, f1. destruct outs as [|[[|]|] r]; try discriminate. left. reflexivity.
Qed.
Print Assumptions C102_nan_refuted.
(** So do infinite headings of the same sign. *)
Theorem C102_infinite_refuted : exists pre, angles number pre /\ forall sq c s at2, let M := ieee_maths sq c s at2 in
  (exists n outs p, d_run ieee M (d_new ieee) pre = Ok (n, outs) /\ used_path pre = Some p /\ limits_given (combine pre outs)) /\ pose_given pre
  /\ d_run ieee M (d_new ieee) (pre ++ [DQuery]) = UB.
Proof.
  exists (trip finf finf). split.
  { split; [intros t p H|intros l p H H2]; unfold trip in H; simpl in H; repeat destruct H as [H|H]; try discriminate; try contradiction.
    - injection H as <- <-. discriminate.
    - injection H as <-. simpl in H2. repeat destruct H2 as [<-|H2]; try contradiction; discriminate. }
  intros sq c s at2 M. split; [|split; [exists fzero, (p64 fzero finf); right; right; left; reflexivity|apply undefined_ub; vm_compute; reflexivity]].
  assert (K : match d_run ieee M (d_new ieee) (trip finf finf) with Ok (_, DDone true :: _) => true | _ => false end = true) by (vm_compute; reflexivity).
  destruct (d_run ieee M (d_new ieee) (trip finf finf)) as [[n outs]| |]; try discriminate. exists n, outs. eexists. split; [reflexivity|]. split; [reflexivity|].
  exists f1, f1. destruct outs as [|[[|]|] r]; try discriminate. left. reflexivity.
Qed.
Print Assumptions C102_infinite_refuted.

(** A path of three poses, walked with an atan2 that is always 0: forward, on to the last pose, and stopped there. *)
Definition fixed_maths : maths f64 := ieee_maths (fun x => fmul x x) (fun _ => f1) (fun _ => fzero) (fun _ _ => fzero).
Definition f2 : f64 := fmake 2 0.
Definition journey : list (dop f64) :=
  [DSat f1 f1; DPath [p64 fzero fzero; p64 f1 fzero; p64 f2 fzero]; DFeedback fzero (p64 fzero fzero); DQuery;
   DFeedback f1 (p64 f1 fzero); DQuery; DQuery; DFeedback f2 (p64 f2 fzero); DQuery; DFeedback f2 (p64 fnan fnan); DQuery].
Definition forward (a : dout f64) : list bool :=
  match a with DCmd k => [Beqb (d_fwd k) f1; Beqb (d_ang k) f1; Beqb (d_fwd k) fzero && Beqb (d_ang k) fzero && Beqb (d_lat k) fzero] | _ => [] end.
Example C102_example :
  match d_run ieee fixed_maths (d_new ieee) journey with
  | Ok (n, outs) => Some (dn_idx n, map forward outs)
  | _ => None end
  = Some (2%nat, [[]; []; []; [true; true; false]; []; [true; true; false]; [true; true; false]; []; [true; true; false]; []; [false; false; true]]).
Proof. vm_compute. reflexivity. Qed.
Example C102_example_defined : used_path journey = Some [p64 fzero fzero; p64 f1 fzero; p64 f2 fzero] /\ pose_given journey
  /\ angles (fun x => fin x = true) (firstn 9 journey) /\ List.Forall tame (setters journey).
Proof.
  split; [reflexivity|]. split; [exists fzero, (p64 fzero fzero); right; right; left; reflexivity|]. split.
  - split; [intros t p H|intros l p H H2]; simpl in H; repeat destruct H as [H|H]; try discriminate; try contradiction.
    1-3: injection H as <- <-; reflexivity.
    injection H as <-. simpl in H2. repeat destruct H2 as [<-|H2]; try contradiction; reflexivity.
  - repeat constructor; intros x Hx; simpl in Hx; repeat destruct Hx as [<-|Hx]; try contradiction; apply num1.
Qed.
