(** Lemmas about the navigation controller in any arithmetic. *)
From Coq Require Import Reals ZArith Lra Lia List Bool PeanoNat.
From Flocq Require Import Core IEEE754.BinarySingleNaN.
From Verif Require Import Prelude UnicycleFoot Ellipse Controllers ControlSpec Navigation NavigationProofs Rounding RoundedGen RoundedGenSpec RoundedGenProofs3 Doubles DoublesSpec DoublesProofs DoublesProofs2
  CtrlDoubles CtrlDoublesSpec CtrlDoublesProofs NavDoublesSpec.
Import ListNotations.
Open Scope R_scope.

Section Any.
Variables (N : Type) (A : arith N) (M : maths N).
Notation run := (d_run A M).
Notation call := (d_call A M).
Notation plan := (d_plan A M).

Lemma drun_app : forall a b n, run n (a ++ b) =
  match run n a with
  | Ok (n1, o1) => match run n1 b with Ok (n2, o2) => Ok (n2, o1 ++ o2) | Fail => Fail | UB => UB end
  | Fail => Fail | UB => UB end.
Proof.
  induction a as [|o a IH]; intros b n; cbn [app d_run].
  - destruct (run n b) as [[? ?]| |]; reflexivity.
  - destruct (call n o) as [[n1 r]| |]; cbn [rbind fst snd]; try reflexivity. rewrite IH.
    destruct (run n1 a) as [[n2 o1]| |]; cbn [rbind fst snd]; try reflexivity.
    destruct (run n2 b) as [[n3 o2]| |]; reflexivity.
Qed.
Lemma drun_snoc : forall ops o n n' outs, run n (ops ++ [o]) = Ok (n', outs) ->
  exists n1 o1 a, run n ops = Ok (n1, o1) /\ call n1 o = Ok (n', a) /\ outs = o1 ++ [a].
Proof.
  intros ops o n n' outs H. rewrite drun_app in H. destruct (run n ops) as [[n1 o1]| |]; try discriminate.
  cbn [d_run] in H. destruct (call n1 o) as [[n2 a]| |] eqn:E; cbn [rbind fst snd] in H; try discriminate. injection H as <- <-.
  exists n1, o1, a. auto.
Qed.
Lemma drun_length : forall ops n n' outs, run n ops = Ok (n', outs) -> length outs = length ops.
Proof.
  induction ops as [|o ops IH]; intros n n' outs H; cbn [d_run] in H; [injection H as <- <-; reflexivity|].
  destruct (call n o) as [[n1 a]| |]; cbn [rbind fst snd] in H; try discriminate.
  destruct (run n1 ops) as [[n2 o2]| |] eqn:E; cbn [rbind fst snd] in H; try discriminate. injection H as <- <-. cbn [length]. f_equal. eauto.
Qed.
Lemma combine_snoc : forall (X Y : Type) (a : list X) (b : list Y) x y, length a = length b -> combine (a ++ [x]) (b ++ [y]) = combine a b ++ [(x, y)].
Proof. induction a as [|p a IH]; intros [|q b] x y H; try discriminate; [reflexivity|]. cbn. f_equal. apply IH. injection H as H. exact H. Qed.

(** What planning changes. *)
Definition same_frame (n n' : dnav N) : Prop :=
  dn_set n' = dn_set n /\ dn_max n' = dn_max n /\ dn_dt n' = dn_dt n /\ dn_path n' = dn_path n /\ dn_idx n' = dn_idx n
  /\ dn_fresh n' = dn_fresh n /\ dn_state n' = dn_state n /\ dn_until n' = dn_until n /\ dn_time n' = dn_time n.
Lemma dplan_frame : forall n n', plan n = Ok n' -> same_frame n n'
  /\ exists g v l a s c, nth_error (dn_path n) (dn_idx n) = Some g /\ dn_max n = Some (v, l, a) /\ dn_state n = Some s
     /\ d_towards A M v l a s g = Ok c /\ dn_des n' = fst c /\ dn_eta n' = Some (snd c).
Proof.
  intros n n' H. unfold d_plan in H. destruct (nth_error _ _) as [g|] eqn:E1; [|discriminate].
  destruct (dn_max n) as [[[v l] a]|] eqn:E2; [|discriminate]. destruct (dn_state n) as [s|] eqn:E3; [|discriminate].
  destruct (d_towards A M v l a s g) as [c| |] eqn:E; cbn [rbind] in H; try discriminate. injection H as <-.
  split; [unfold same_frame; cbn; repeat split; auto|]. exists g, v, l, a, s, c. cbn. auto 8.
Qed.

Definition unfresh (n : dnav N) := MkDN (dn_set n) (dn_max n) (dn_des n) (dn_time n) (dn_dt n) (dn_until n) (dn_path n) (dn_state n) (dn_idx n) (dn_eta n) (Some false).
Definition forth (n : dnav N) := MkDN (dn_set n) (dn_max n) (dn_des n) (dn_time n) (dn_dt n) (dn_until n) (dn_path n) (dn_state n) (S (dn_idx n)) (dn_eta n) (dn_fresh n).
Definition halt (n : dnav N) := MkDN (dn_set n) (dn_max n) (d_zero A) (dn_time n) (dn_dt n) (dn_until n) (dn_path n) (dn_state n) (dn_idx n) (dn_eta n) (dn_fresh n).
Inductive dquery_shape (n n' : dnav N) : dcmd N -> Prop :=
| DQPause : a_lt A (dn_time n) (dn_until n) = true -> n' = n -> dquery_shape n n' (d_zero A)
| DQStop : a_lt A (dn_time n) (dn_until n) = false -> arrived A n -> n' = halt n -> dquery_shape n n' (d_zero A)
| DQFresh : a_lt A (dn_time n) (dn_until n) = false -> dn_fresh n = Some true -> plan (unfresh n) = Ok n' -> dquery_shape n n' (dn_des n')
| DQNext : forall eta, a_lt A (dn_time n) (dn_until n) = false -> dn_fresh n = Some false -> dn_eta n = Some eta -> a_lt A eta (dn_dt n) = true ->
    S (dn_idx n) <> length (dn_path n) -> plan (forth n) = Ok n' -> dquery_shape n n' (dn_des n')
| DQGo : forall eta, a_lt A (dn_time n) (dn_until n) = false -> dn_fresh n = Some false -> dn_eta n = Some eta -> a_lt A eta (dn_dt n) = false ->
    plan n = Ok n' -> dquery_shape n n' (dn_des n').
Lemma dquery_shapes : forall n n' c, d_query A M n = Ok (n', c) -> dquery_shape n n' c.
Proof.
  intros n n' c H. unfold d_query in H. destruct (a_lt A (dn_time n) (dn_until n)) eqn:Et.
  - injection H as <- <-. constructor; auto.
  - unfold d_compute in H. destruct (dn_fresh n) as [[|]|] eqn:Ef; [| |discriminate].
    + fold (unfresh n) in H. destruct (plan _) as [m| |] eqn:Ep; cbn [rbind] in H; try discriminate. injection H as <- <-. apply DQFresh; auto.
    + destruct (dn_eta n) as [eta|] eqn:Ee; [|discriminate]. destruct (a_lt A eta (dn_dt n)) eqn:Ed.
      * destruct (Nat.eqb (S (dn_idx n)) (length (dn_path n))) eqn:En.
        -- apply Nat.eqb_eq in En. cbn [rbind] in H. injection H as <- <-. apply DQStop; auto. { repeat split; eauto. } { unfold halt. rewrite Ee, Ef. reflexivity. }
        -- apply Nat.eqb_neq in En. match type of H with context [d_plan A M ?x] => replace x with (forth n) in H by (unfold forth; rewrite Ee, Ef; reflexivity) end.
           destruct (plan _) as [m| |] eqn:Ep; cbn [rbind] in H; try discriminate. injection H as <- <-. apply DQNext with eta; auto.
      * destruct (plan _) as [m| |] eqn:Ep; cbn [rbind] in H; try discriminate. injection H as <- <-. apply DQGo with eta; auto.
Qed.

(** ** Invariant of every history *)
Record dnav_inv (n : dnav N) (ops : list (dop N)) (outs : list (dout N)) : Prop := {
  di_max : limits_given (combine ops outs) -> dn_max n <> None;
  di_state : pose_given ops -> dn_state n <> None;
  di_path : match used_path ops with
            | Some p => dn_path n = p /\ (1 <= dn_idx n < length p)%nat
                        /\ (dn_fresh n = Some true /\ dn_idx n = 1%nat \/ dn_fresh n = Some false /\ dn_eta n <> None)
            | None => dn_path n = [] /\ dn_idx n = 1%nat /\ dn_fresh n = None
            end }.
Lemma used_snoc : forall ops o, used_path (ops ++ [o]) = match o with DPath (x :: y :: r) => Some (x :: y :: r) | _ => @used_path N ops end.
Proof. intros. unfold used_path. rewrite last_of_app. destruct o as [| |q| | | | | | |]; try reflexivity. destruct q as [|x [|y q]]; reflexivity. Qed.
Lemma pose_snoc : forall ops o, @pose_given N (ops ++ [o]) -> pose_given ops \/ exists t p, o = DFeedback t p.
Proof. intros ops o (t & p & H). apply in_app_iff in H as [H|[H|[]]]; [left|right]; exists t, p; auto. Qed.
Lemma limits_snoc_d : forall h o a, @limits_given N (h ++ [(o, a)]) -> limits_given h \/ exists l w, o = DSat l w /\ a = DDone true.
Proof. intros h o a (l & w & H). apply in_app_iff in H as [H|[H|[]]]; [left; exists l, w; auto|right; injection H as -> ->; eauto]. Qed.

Lemma sat_frame : forall l a n, let n' := fst (d_setSat A l a n) in
  dn_path n' = dn_path n /\ dn_idx n' = dn_idx n /\ dn_fresh n' = dn_fresh n /\ dn_eta n' = dn_eta n /\ dn_state n' = dn_state n /\ dn_dt n' = dn_dt n
  /\ dn_des n' = dn_des n /\ dn_time n' = dn_time n /\ dn_until n' = dn_until n
  /\ (dn_max n <> None -> dn_max n' <> None) /\ (snd (d_setSat A l a n) = true -> dn_max n' <> None).
Proof.
  intros l a n. unfold d_setSat. destruct (setv A _ _) as [s [|]]; [|cbn; repeat split; auto; discriminate].
  unfold d_setMax. destruct (_ || _ || _); cbn; repeat split; auto; discriminate.
Qed.
Lemma base_frame : forall c n, let n' := fst (d_setBase A c n) in
  dn_path n' = dn_path n /\ dn_idx n' = dn_idx n /\ dn_fresh n' = dn_fresh n /\ dn_eta n' = dn_eta n /\ dn_state n' = dn_state n /\ dn_dt n' = dn_dt n
  /\ dn_des n' = dn_des n /\ dn_time n' = dn_time n /\ dn_until n' = dn_until n /\ dn_max n' = dn_max n.
Proof. intros c n. unfold d_setBase. destruct (setv A _ _) as [s b]. cbn. repeat split; auto. Qed.

Lemma dcall_inv : forall ops outs o n n' a, length ops = length outs -> dnav_inv n ops outs -> call n o = Ok (n', a) -> dnav_inv n' (ops ++ [o]) (outs ++ [a]).
Proof.
  intros ops outs o n n' a L [M0 S0 P] H.
  assert (J : forall m, (dn_max n <> None -> dn_max m <> None) -> (forall l w, o = DSat l w -> a = DDone true -> dn_max m <> None) ->
    (dn_state n <> None -> dn_state m <> None) -> (forall t p, o = DFeedback t p -> dn_state m <> None) ->
    match used_path (ops ++ [o]) with
            | Some p => dn_path m = p /\ (1 <= dn_idx m < length p)%nat
                        /\ (dn_fresh m = Some true /\ dn_idx m = 1%nat \/ dn_fresh m = Some false /\ dn_eta m <> None)
            | None => dn_path m = [] /\ dn_idx m = 1%nat /\ dn_fresh m = None
            end -> dnav_inv m (ops ++ [o]) (outs ++ [a])).
  { intros m H1 H2 H3 H4 H5. split; [| |exact H5].
    - rewrite combine_snoc by exact L. intros G. apply limits_snoc_d in G as [G|(l & w & -> & ->)]; eauto.
    - intros G. apply pose_snoc in G as [G|(t & p & ->)]; eauto. }
  rewrite used_snoc in J.
  destruct o as [t p| |q|l w|g|g|g|d|t|c]; cbn [d_call] in H.
  - injection H as <- <-. apply J; cbn; try tauto; try discriminate; try (intros; discriminate).
  - destruct (d_query A M n) as [[m c]| |] eqn:Eq; cbn [rbind fst snd] in H; try discriminate. injection H as <- <-.
    apply dquery_shapes in Eq.
    destruct Eq as [_ ->|_ _ ->|_ Hf Hp|eta _ Hf He Hlt Hne Hp|eta _ Hf He Hge Hp].
    + apply J; auto; intros; discriminate.
    + apply J; cbn; auto; intros; discriminate.
    + apply dplan_frame in Hp as ((_ & p2 & _ & p4 & p5 & p6 & p7 & _) & g & v & l & w & s & c & _ & _ & _ & _ & _ & p8). cbn in *.
      apply J; rewrite ?p2, ?p7; auto; try (intros; discriminate).
      destruct (used_path ops) as [p|]; [|destruct P as (_ & _ & P); congruence]. rewrite p4, p5, p6, p8. destruct P as (P1 & P2 & P3). split; [auto|]. split; [auto|]. right. split; congruence.
    + apply dplan_frame in Hp as ((_ & p2 & _ & p4 & p5 & p6 & p7 & _) & g & v & l & w & s & c & _ & _ & _ & _ & _ & p8). cbn in *.
      apply J; rewrite ?p2, ?p7; auto; try (intros; discriminate).
      destruct (used_path ops) as [p|]; [|destruct P as (_ & _ & P); congruence]. rewrite p4, p5, p6, p8. destruct P as (P1 & P2 & P3). split; [auto|]. split; [rewrite P1 in Hne; lia|]. right. split; congruence.
    + apply dplan_frame in Hp as ((_ & p2 & _ & p4 & p5 & p6 & p7 & _) & g & v & l & w & s & c & _ & _ & _ & _ & _ & p8). cbn in *.
      apply J; rewrite ?p2, ?p7; auto; try (intros; discriminate).
      destruct (used_path ops) as [p|]; [|destruct P as (_ & _ & P); congruence]. rewrite p4, p5, p6, p8. destruct P as (P1 & P2 & P3). split; [auto|]. split; [auto|]. right. split; congruence.
  - unfold d_done in H. injection H as <- <-. unfold d_setPath in *. destruct q as [|x [|y q]]; cbn in *.
    + apply J; auto; intros; discriminate.
    + apply J; auto; intros; discriminate.
    + apply J; cbn; auto; try (intros; discriminate). split; [reflexivity|]. split; [lia|]. left. auto.
  - unfold d_done in H. injection H as <- <-. pose proof (sat_frame l w n) as F. cbv zeta in F. destruct F as (f1' & f2 & f3 & f4 & f5 & _ & _ & _ & _ & f6 & f7).
    apply J; rewrite ?f1', ?f2, ?f3, ?f4, ?f5; auto; try (intros; discriminate). intros l' w' _ E. injection E as E. auto.
  - unfold d_done in H. injection H as <- <-. pose proof (base_frame (sTurn g) n) as F. cbv zeta in F. destruct F as (e1 & e2 & e3 & e4 & e5 & _ & _ & _ & _ & e6).
    apply J; rewrite ?e1, ?e2, ?e3, ?e4, ?e5, ?e6; auto; intros; discriminate.
  - unfold d_done in H. injection H as <- <-. pose proof (base_frame (sBack g) n) as F. cbv zeta in F. destruct F as (e1 & e2 & e3 & e4 & e5 & _ & _ & _ & _ & e6).
    apply J; rewrite ?e1, ?e2, ?e3, ?e4, ?e5, ?e6; auto; intros; discriminate.
  - unfold d_done in H. injection H as <- <-. pose proof (base_frame (sSide g) n) as F. cbv zeta in F. destruct F as (e1 & e2 & e3 & e4 & e5 & _ & _ & _ & _ & e6).
    apply J; rewrite ?e1, ?e2, ?e3, ?e4, ?e5, ?e6; auto; intros; discriminate.
  - unfold d_done in H. injection H as <- <-. unfold d_setStep in *. destruct (a_eq A d (c0 A)); cbn [fst] in *; apply J; cbn; auto; intros; discriminate.
  - injection H as <- <-. apply J; cbn; auto; intros; discriminate.
  - injection H as <- <-. apply J; cbn; auto; intros; discriminate.
Qed.
Lemma drun_inv : forall ops n outs, run (d_new A) ops = Ok (n, outs) -> dnav_inv n ops outs.
Proof.
  induction ops as [|o ops IH] using rev_ind; intros n outs H.
  - cbn in H. injection H as <- <-. split; cbn; auto; intros G; [destruct G as (? & ? & [])|destruct G as (? & ? & [])].
  - apply drun_snoc in H as (n1 & o1 & a & H1 & H2 & ->). apply dcall_inv with n1; auto. symmetry. eapply drun_length; eauto.
Qed.

(** ** Every call is defined, given a defined direction *)
Lemma towards_ok : forall v l a s g, d_direction A (d_wrap A M (a_sub A (d_th g) (d_th s))) <> UB -> exists c, d_towards A M v l a s g = Ok c.
Proof.
  intros v l a s g H. unfold d_towards. destruct (d_direction A _) as [dir| |] eqn:E; [|exfalso|contradiction].
  - cbn [rbind]. destruct (a_lt A _ _); eauto.
  - unfold d_direction in E. destruct (a_le A _ _); [discriminate|]. destruct (a_lt A _ _); discriminate.
Qed.
Lemma plan_ok : forall n g m s, nth_error (dn_path n) (dn_idx n) = Some g -> dn_max n = Some m -> dn_state n = Some s ->
  d_direction A (d_wrap A M (a_sub A (d_th g) (d_th s))) <> UB -> exists n', plan n = Ok n'.
Proof.
  intros n g [[v l] a] s H1 H2 H3 H4. unfold d_plan. rewrite H1, H2, H3. destruct (towards_ok v l a s g H4) as (c & ->). cbn [rbind]. eauto.
Qed.
(** Ready: limits, pose and path known, and all differences of angles have a direction. *)
Definition dready (n : dnav N) : Prop :=
  dn_max n <> None /\ (1 <= dn_idx n < length (dn_path n))%nat /\ (dn_fresh n = Some true \/ dn_fresh n = Some false /\ dn_eta n <> None)
  /\ exists s, dn_state n = Some s /\ forall g, In g (dn_path n) -> d_direction A (d_wrap A M (a_sub A (d_th g) (d_th s))) <> UB.
Lemma ready_query : forall n, dready n -> exists n' c, d_query A M n = Ok (n', c).
Proof.
  intros n (R1 & R2 & R3 & s & R4 & R5). unfold d_query. destruct (a_lt A (dn_time n) (dn_until n)); [eauto|].
  destruct (dn_max n) as [m|] eqn:Em; [|congruence].
  assert (G : forall k x, dn_path k = dn_path n -> dn_max k = dn_max n -> dn_state k = dn_state n -> nth_error (dn_path n) (dn_idx k) = Some x ->
    exists n' c, (do n' <- plan k; Ok (n', dn_des n')) = Ok (n', c)).
  { intros k x H1 H2 H3 H4. destruct (plan_ok k x m s) as (n' & ->); rewrite ?H1, ?H2, ?H3; auto. { eapply R5, nth_error_In; eauto. } cbn [rbind]. eauto. }
  unfold d_compute. destruct (dn_fresh n) as [[|]|] eqn:Ef; [| |destruct R3 as [R3|(R3 & _)]; discriminate].
  - destruct (nth_error (dn_path n) (dn_idx n)) as [x|] eqn:Ex; [|apply nth_error_None in Ex; lia]. eapply G; cbn; eauto.
  - destruct (dn_eta n) as [eta|]; [|destruct R3 as [R3|(_ & R3)]; congruence]. destruct (a_lt A eta (dn_dt n)).
    + destruct (Nat.eqb _ _) eqn:En; [cbn [rbind]; eauto|]. apply Nat.eqb_neq in En.
      destruct (nth_error (dn_path n) (S (dn_idx n))) as [x|] eqn:Ex; [|apply nth_error_None in Ex; lia]. eapply G; cbn; eauto.
    + destruct (nth_error (dn_path n) (dn_idx n)) as [x|] eqn:Ex; [|apply nth_error_None in Ex; lia]. eapply G; cbn; eauto.
Qed.

(** Angles with a property [P] kept by the normalisation. *)
Variable P : N -> Prop.
Hypothesis P_wrap : forall a, P a -> P (d_wrap A M a).
Hypothesis P_dir : forall a b, P a -> P b -> d_direction A (d_wrap A M (a_sub A a b)) <> UB.
Definition pure_n (n : dnav N) : Prop := (forall s, dn_state n = Some s -> P (d_th s)) /\ forall g, In g (dn_path n) -> P (d_th g).
Lemma call_pure : forall n o n' a, call n o = Ok (n', a) -> pure_n n -> angles P [o] -> pure_n n'.
Proof.
  intros n o n' a H (S0 & P0) (G1 & G2). destruct o as [t p| |q|l w|g|g|g|d|t|c]; cbn [d_call] in H.
  - injection H as <- <-. split; cbn; auto. intros s E. injection E as <-. cbn. apply P_wrap. eapply G1; left; reflexivity.
  - destruct (d_query A M n) as [[m c]| |] eqn:Eq; cbn [rbind fst snd] in H; try discriminate. injection H as <- <-. apply dquery_shapes in Eq.
    destruct Eq as [_ ->|_ _ ->|_ Hf Hp|eta _ Hf He Hlt Hne Hp|eta _ Hf He Hge Hp]; try (split; auto; fail).
    all: apply dplan_frame in Hp as ((_ & _ & _ & p4 & _ & _ & p7 & _) & _); cbn in *; split; rewrite ?p4, ?p7; auto.
  - unfold d_done in H. injection H as <- <-. unfold d_setPath. destruct (Nat.ltb _ _); cbn; split; cbn; auto. intros g Hg. eapply G2; [left; reflexivity|auto].
  - unfold d_done in H. injection H as <- <-. pose proof (sat_frame l w n) as F. cbv zeta in F. destruct F as (e1 & _ & _ & _ & e5 & _). split; rewrite ?e1, ?e5; auto.
  - unfold d_done in H. injection H as <- <-. pose proof (base_frame (sTurn g) n) as F. cbv zeta in F. destruct F as (e1 & _ & _ & _ & e5 & _). split; rewrite ?e1, ?e5; auto.
  - unfold d_done in H. injection H as <- <-. pose proof (base_frame (sBack g) n) as F. cbv zeta in F. destruct F as (e1 & _ & _ & _ & e5 & _). split; rewrite ?e1, ?e5; auto.
  - unfold d_done in H. injection H as <- <-. pose proof (base_frame (sSide g) n) as F. cbv zeta in F. destruct F as (e1 & _ & _ & _ & e5 & _). split; rewrite ?e1, ?e5; auto.
  - unfold d_done in H. injection H as <- <-. unfold d_setStep. destruct (a_eq A d (c0 A)); split; cbn; auto.
  - injection H as <- <-. split; cbn; auto.
  - injection H as <- <-. split; cbn; auto.
Qed.
Lemma run_pure : forall ops n n' outs, run n ops = Ok (n', outs) -> pure_n n -> angles P ops -> pure_n n'.
Proof.
  induction ops as [|o ops IH]; intros n n' outs H Q (G1 & G2); cbn [d_run] in H; [injection H as <- <-; auto|].
  destruct (call n o) as [[n1 a]| |] eqn:E; cbn [rbind fst snd] in H; try discriminate.
  destruct (run n1 ops) as [[n2 o2]| |] eqn:E2; cbn [rbind fst snd] in H; try discriminate. injection H as <- <-.
  apply (IH _ _ _ E2). { apply (call_pure _ _ _ _ E Q). split; [intros t p [H|[]]|intros l p [H|[]]]; subst; [eapply G1|eapply G2]; left; reflexivity. }
  split; [intros t p H|intros l p H]; [eapply G1|eapply G2]; right; eauto.
Qed.
(** Once ready, every continuation is defined. *)
Definition armed (n : dnav N) : Prop :=
  dn_max n <> None /\ (1 <= dn_idx n < length (dn_path n))%nat /\ (dn_fresh n = Some true \/ dn_fresh n = Some false /\ dn_eta n <> None)
  /\ dn_state n <> None.
Lemma armed_ready : forall n, armed n -> pure_n n -> dready n.
Proof.
  intros n (a1 & a2 & a3 & a4) (Q1 & Q2). split; auto. split; auto. split; auto. destruct (dn_state n) as [s|]; [|congruence]. exists s. split; auto.
Qed.
Lemma armed_call : forall n o, armed n -> pure_n n -> angles P [o] -> exists n' a, call n o = Ok (n', a) /\ armed n'.
Proof.
  intros n o AR Q G. assert (AR' := AR). destruct AR' as (a1 & a2 & a3 & a4). destruct o as [t p| |q|l w|g|g|g|d|t|c]; cbn [d_call].
  - do 2 eexists. split; [reflexivity|]. unfold armed. cbn. repeat split; auto; try lia; discriminate.
  - destruct (ready_query n (armed_ready n AR Q)) as (n' & c & E). rewrite E. cbn [rbind fst snd]. do 2 eexists. split; [reflexivity|]. apply dquery_shapes in E.
    destruct E as [_ ->|_ _ ->|_ Hf Hp|eta _ Hf He Hlt Hne Hp|eta _ Hf He Hge Hp]; try exact AR.
    all: apply dplan_frame in Hp as ((_ & p2 & _ & p4 & p5 & p6 & p7 & _) & g & v & l & w & s & c & _ & _ & _ & _ & _ & p8); cbn in *; unfold armed; rewrite p2, p4, p5, p6, p7, p8.
    + repeat split; auto; try lia. right. split; auto. discriminate.
    + repeat split; auto; try lia. right. split; auto. discriminate.
    + repeat split; auto; try lia. right. split; auto. discriminate.
  - do 2 eexists. split; [reflexivity|]. unfold d_setPath. destruct (Nat.ltb (length q) 2) eqn:El; [exact AR|]. apply Nat.ltb_ge in El. unfold armed. cbn. repeat split; auto; lia.
  - do 2 eexists. split; [reflexivity|]. pose proof (sat_frame l w n) as F. cbv zeta in F. destruct F as (e1 & e2 & e3 & e4 & e5 & _ & _ & _ & _ & e6 & _).
    unfold armed. rewrite e1, e2, e3, e4, e5. repeat split; auto; lia.
  - do 2 eexists. split; [reflexivity|]. pose proof (base_frame (sTurn g) n) as F. cbv zeta in F. destruct F as (e1 & e2 & e3 & e4 & e5 & _ & _ & _ & _ & e6).
    unfold armed. rewrite e1, e2, e3, e4, e5, e6. repeat split; auto; lia.
  - do 2 eexists. split; [reflexivity|]. pose proof (base_frame (sBack g) n) as F. cbv zeta in F. destruct F as (e1 & e2 & e3 & e4 & e5 & _ & _ & _ & _ & e6).
    unfold armed. rewrite e1, e2, e3, e4, e5, e6. repeat split; auto; lia.
  - do 2 eexists. split; [reflexivity|]. pose proof (base_frame (sSide g) n) as F. cbv zeta in F. destruct F as (e1 & e2 & e3 & e4 & e5 & _ & _ & _ & _ & e6).
    unfold armed. rewrite e1, e2, e3, e4, e5, e6. repeat split; auto; lia.
  - do 2 eexists. split; [reflexivity|]. unfold d_setStep. destruct (a_eq A d (c0 A)); exact AR.
  - do 2 eexists. split; [reflexivity|]. exact AR.
  - do 2 eexists. split; [reflexivity|]. exact AR.
Qed.
Lemma armed_run : forall ops n, armed n -> pure_n n -> angles P ops -> exists n' outs, run n ops = Ok (n', outs).
Proof.
  induction ops as [|o ops IH]; intros n AR Q (G1 & G2); cbn [d_run]; [eauto|].
  assert (G : angles P [o]) by (split; [intros t p [H|[]]|intros l p [H|[]]]; subst; [eapply G1|eapply G2]; left; reflexivity).
  destruct (armed_call n o AR Q G) as (n1 & a & E & AR1). rewrite E. cbn [rbind fst snd].
  destruct (IH n1 AR1 (call_pure _ _ _ _ E Q G)) as (n2 & o2 & ->). { split; [intros t p H|intros l p H]; [eapply G1|eapply G2]; right; eauto. }
  cbn [rbind fst snd]. eauto.
Qed.
Lemma history_armed : forall ops n outs p, run (d_new A) ops = Ok (n, outs) -> used_path ops = Some p -> limits_given (combine ops outs) -> pose_given ops -> armed n.
Proof.
  intros ops n outs p H U L F. apply drun_inv in H as [J1 J2 J3]. rewrite U in J3. destruct J3 as (K1 & K2 & K3). repeat split; auto; try (rewrite K1; lia); try lia. destruct K3 as [(K3 & _)|K3]; auto.
Qed.
Lemma new_pure : pure_n (d_new A).
Proof. split; cbn; [discriminate|tauto]. Qed.
End Any.

(** ** Doubles *)
Lemma f2r_top : forall x : f64, Rabs (f2r x) <= top.
Proof. intros x. pose proof (le_top x). pose proof (le_top (fopp x)) as H2. unfold f2r, fopp in H2. rewrite B2R_Bopp in H2. apply Rabs_le. unfold f2r in *. lra. Qed.
Lemma b64_opp : forall x, b64 (- x) = - b64 x.
Proof. apply (r_opp _ b64_rounding). Qed.
Section Ieee.
Variables (sq c s : f64 -> f64) (at2 : f64 -> f64 -> f64).
Let M := ieee_maths sq c s at2.
Lemma wrap64 : forall x, d_wrap ieee M x = wrapped64 x.
Proof.
  intros x. unfold d_wrap, wrapped64, d_2pi. cbn [a_q a_lt a_sub a_add a_mul a_pi ieee x_opp M ieee_maths].
  replace (fdiv (fmake 2 0) (fmake 1 0)) with (fmake 2 0) by (apply same_f64; vm_compute; reflexivity). reflexivity.
Qed.
Lemma turn_ok : fin (fmul (fmake 2 0) fpi) = true /\ 0 <= f2r (fmul (fmake 2 0) fpi) <= 8.
Proof.
  destruct (fmake_exact 8) as (F8 & V8); [lia|]. assert (F : fin (fmul (fmake 2 0) fpi) = true) by (vm_compute; reflexivity).
  assert (H1 : Bleb fzero (fmul (fmake 2 0) fpi) = true) by (vm_compute; reflexivity). assert (H2 : Bleb (fmul (fmake 2 0) fpi) (fmake 8 0) = true) by (vm_compute; reflexivity).
  rewrite ble_ok in H1, H2 by auto. apply Rleb_true in H1. apply Rleb_true in H2. change (f2r fzero) with 0 in H1. rewrite V8 in H2. auto.
Qed.
Lemma opp_pi : fin (fopp fpi) = true /\ f2r (fopp fpi) = - f2r fpi.
Proof. split; [vm_compute; reflexivity|]. unfold fopp, f2r. apply B2R_Bopp. Qed.
Lemma pi_small : 0 < f2r fpi <= 4.
Proof.
  split; [apply fpi_pos|]. destruct (fmake_exact 4) as (F4 & V4); [lia|]. destruct fpi_ok as (Fp & _).
  assert (H : Bleb fpi (fmake 4 0) = true) by (vm_compute; reflexivity). rewrite ble_ok in H by auto. apply Rleb_true in H. rewrite V4 in H. exact H.
Qed.
Lemma wrap_fin : forall x, fin x = true -> fin (wrapped64 x) = true.
Proof.
  intros x F. unfold wrapped64. destruct turn_ok as (Ft & Vt). destruct opp_pi as (Fo & Vo). destruct fpi_ok as (Fp & _). pose proof pi_small. pose proof (le_top x) as L. pose proof (Rabs_le_inv _ _ (f2r_top x)) as L2.
  rewrite !blt_ok, Vo by auto. assert (T8 : 8 <= top) by (eapply Rle_trans; [|apply pow_top]; change 8 with (bpow radix2 3); apply bpow_le; lia).
  rcases.
  - apply fsub_ok; auto. apply Rabs_le. lra.
  - apply fadd_ok; auto. apply Rabs_le. lra.
  - auto.
Qed.
Lemma fsub_number : forall x y, fin x = true -> fin y = true -> number (fsub x y).
Proof.
  intros x y Fx Fy E. unfold fsub, fin in *. pose proof (Bminus_correct 53 1024 prec64 emax64 mode_NE x y Fx Fy) as H. rewrite E in H.
  destruct (Rlt_bool _ _); [destruct H as (_ & H & _); discriminate|]. destruct H as (H & _). destruct (Bsign x); discriminate.
Qed.
Lemma wrap_number : forall x, number x -> number (wrapped64 x).
Proof.
  intros x Nx. destruct (number_cases x Nx) as [F|[-> | ->]].
  - apply fin_number, wrap_fin, F.
  - vm_compute. discriminate.
  - vm_compute. discriminate.
Qed.
Lemma wrap_nan : wrapped64 fnan = fnan.
Proof. reflexivity. Qed.
Lemma direction64 : forall d, match d_direction ieee d with
  | Ok x => le64 fzero d /\ x = f1 \/ lt64 d fzero /\ x = fm1 | UB => d = fnan | Fail => False end.
Proof.
  intros d. unfold d_direction. rewrite c0_zero. cbn [a_le a_lt ieee]. change (a_q ieee 1 1) with (c1 ieee). rewrite c1_one.
  assert (E : a_q ieee (-1) 1 = fm1) by (apply same_f64; vm_compute; reflexivity). rewrite E.
  destruct (Bleb fzero d) eqn:E1; [left; auto|]. destruct (Bltb d fzero) eqn:E2; [right; auto|].
  destruct (is_nan d) eqn:En; [destruct d; try discriminate; reflexivity|]. exfalso. apply number_nan in En.
  rewrite ble_key in E1 by (auto; apply num0). rewrite blt_key in E2 by (auto; apply num0). rcasesh E1; rcasesh E2; lra.
Qed.
Lemma finite_direction : forall a b, fin a = true -> fin b = true -> d_direction ieee (d_wrap ieee M (fsub a b)) <> UB.
Proof.
  intros a b Fa Fb E. rewrite wrap64 in E. pose proof (direction64 (wrapped64 (fsub a b))) as H. rewrite E in H.
  exact (wrap_number _ (fsub_number a b Fa Fb) H).
Qed.
Lemma times_one : forall a, number a -> key (fmul f1 a) = key a /\ number (fmul f1 a).
Proof.
  intros a Na. destruct f1_ok as (F1 & V1). destruct (number_cases a Na) as [F|[-> | ->]].
  - destruct (fmul_ok f1 a F1 F) as (G1 & G2); [rewrite V1, Rmult_1_l; apply f2r_top|]. rewrite !key_fin by auto. rewrite G2, V1, Rmult_1_l. split; [apply f2r_fix|apply fin_number; auto].
  - split; [vm_compute; reflexivity|vm_compute; discriminate].
  - split; [vm_compute; reflexivity|vm_compute; discriminate].
Qed.
Lemma times_minus : forall a, number a -> key (fmul fm1 a) = - key a /\ number (fmul fm1 a).
Proof.
  intros a Na. destruct fm1_ok as (F1 & V1). destruct (number_cases a Na) as [F|[-> | ->]].
  - destruct (fmul_ok fm1 a F1 F) as (G1 & G2). { rewrite V1. replace (-1 * f2r a) with (- f2r a) by lra. rewrite Rabs_Ropp. apply f2r_top. }
    rewrite !key_fin by auto. rewrite G2, V1. split; [|apply fin_number; auto]. replace (-1 * f2r a) with (- f2r a) by lra. rewrite b64_opp. f_equal. apply f2r_fix.
  - split; [cbn; lra|vm_compute; discriminate].
  - split; [cbn; lra|vm_compute; discriminate].
Qed.
Lemma eq64_key : forall x y, number x -> number y -> key x = key y -> eq64 x y.
Proof. intros x y Nx Ny E. unfold eq64. rewrite beq_key by auto. rcases; auto. Qed.
(** The angular velocity has the full size and turns to the wrapped difference. *)
Lemma towards_turns : forall v l a st g r, d_towards ieee M v l a st g = Ok r -> number a ->
  let d := wrapped64 (fsub (d_th g) (d_th st)) in
  le64 fzero d /\ eq64 (d_ang (fst r)) a \/ lt64 d fzero /\ eq64 (d_ang (fst r)) (fopp a).
Proof.
  intros v l a st g r H Na d. unfold d_towards in H. rewrite wrap64 in H. cbn [a_sub ieee] in H. fold d in H.
  pose proof (direction64 d) as D. destruct (d_direction ieee d) as [dir| |]; cbn [rbind] in H; try discriminate.
  assert (E : d_ang (fst r) = fmul dir a). { destruct (a_lt ieee _ _); injection H as <-; reflexivity. }
  rewrite E. destruct D as [(D & ->)|(D & ->)]; [left|right]; (split; [exact D|]).
  - destruct (times_one a Na). apply eq64_key; auto.
  - destruct (times_minus a Na) as (K1 & K2). apply eq64_key; auto using num_opp. rewrite key_opp. exact K1.
Qed.

(** ** Settings and limits of a history *)
Lemma setters_app : forall a b, setters (a ++ b) = setters a ++ @setters f64 b.
Proof. induction a as [|o a IH]; intros b; [reflexivity|]. destruct o; cbn [app setters]; rewrite IH; reflexivity. Qed.
Lemma settings_snoc : forall l o, settings ieee (l ++ [o]) = fst (setv ieee o (settings ieee l)).
Proof. intros. unfold settings. rewrite fold_left_app. reflexivity. Qed.
Lemma turning_snoc : forall h o a, turning64 (h ++ [(o, a)]) = match o, a with
  | DSat _ w, DDone true => Some (Babs (fdiv w (fadd f1 (turn64 (setters (map fst h)))))) | _, _ => turning64 h end.
Proof. intros. unfold turning64. rewrite rev_app_distr. cbn [rev app speed_rev]. rewrite map_rev, rev_involutive. destruct o; try reflexivity; destruct a as [[|]|]; reflexivity. Qed.
Lemma map_combine : forall (X Y : Type) (a : list X) (b : list Y), length a = length b -> map fst (combine a b) = a.
Proof. induction a as [|x a IH]; intros [|y b] H; try discriminate; [reflexivity|]. cbn. f_equal. apply IH. injection H as H. exact H. Qed.
Definition limits_inv (n : dnav f64) (ops : list (dop f64)) (outs : list (dout f64)) : Prop :=
  dn_set n = settings ieee (setters ops) /\ match dn_max n with Some (_, _, a) => turning64 (combine ops outs) = Some a | None => turning64 (combine ops outs) = None end.
Lemma limits_call : forall n ops outs o n' a, length ops = length outs -> limits_inv n ops outs -> List.Forall tame (setters (ops ++ [o])) ->
  d_call ieee M n o = Ok (n', a) -> limits_inv n' (ops ++ [o]) (outs ++ [a]).
Proof.
  intros n ops outs o n' a L (I1 & I2) T H. unfold limits_inv. rewrite combine_snoc by exact L. rewrite turning_snoc, setters_app.
  assert (K : forall m, dn_set m = dn_set n -> dn_max m = dn_max n -> setters [o] = [] -> match o with DSat _ _ => False | _ => True end ->
    dn_set m = settings ieee (setters ops ++ setters [o]) /\ match dn_max m with Some (_, _, w) =>
       match o, a with DSat _ w, DDone true => Some (Babs (fdiv w (fadd f1 (turn64 (setters (map fst (combine ops outs))))))) | _, _ => turning64 (combine ops outs) end = Some w
     | None => match o, a with DSat _ w, DDone true => Some (Babs (fdiv w (fadd f1 (turn64 (setters (map fst (combine ops outs))))))) | _, _ => turning64 (combine ops outs) end = None end).
  { intros m H1 H2 H3 H4. rewrite H1, H2, H3, app_nil_r. split; auto. destruct o; try contradiction; exact I2. }
  destruct o as [t p| |q|l w|g|g|g|d|t|k]; cbn [d_call] in H.
  - injection H as <- <-. apply K; auto.
  - destruct (d_query ieee M n) as [[m r]| |] eqn:Eq; cbn [rbind fst snd] in H; try discriminate. injection H as <- <-. apply dquery_shapes in Eq.
    destruct Eq as [_ ->|_ _ ->|_ Hf Hp|eta _ Hf He Hlt Hne Hp|eta _ Hf He Hge Hp]; try (apply K; auto; fail).
    all: apply dplan_frame in Hp as ((p1 & p2 & _) & _); apply K; auto.
  - unfold d_done in H. injection H as <- <-. unfold d_setPath. destruct (Nat.ltb _ _); apply K; auto.
  - unfold d_done in H. injection H as <- <-. cbn [setters]. rewrite settings_snoc, <- I1. unfold d_setSat. rewrite map_combine by exact L.
    destruct (setv ieee (sSat l w) (dn_set n)) as [s' ok] eqn:Es.
    assert (Eo : s' = (if ok then upd (upd (dn_set n) q_satLin l) q_satAng w else dn_set n)). { cbn [setv] in Es. destruct (_ || _); injection Es as <- <-; reflexivity. }
    destruct ok; cbn [fst snd]; [|split; [auto|exact I2]].
    unfold d_setMax. destruct (_ || _ || _); cbn [fst snd d_with_set dn_set dn_max]; (split; [reflexivity|]); [exact I2|]. do 2 f_equal.
    assert (E2 : s' q_satAng = w /\ s' q_turn = dn_set n q_turn) by (subst s'; split; reflexivity). destruct E2 as (-> & ->).
    rewrite c1_one. cbn [a_div a_add ieee]. rewrite I1. change (a_abs ieee) with (@Babs 53 1024). rewrite (proj1 (factor_settings (setters ops) ltac:(rewrite setters_app in T; apply Forall_app in T; tauto))). reflexivity.
  - unfold d_done in H. injection H as <- <-. cbn [setters]. rewrite settings_snoc, <- I1. unfold d_setBase. destruct (setv ieee (sTurn g) (dn_set n)) as [s' ok]. split; auto.
  - unfold d_done in H. injection H as <- <-. cbn [setters]. rewrite settings_snoc, <- I1. unfold d_setBase. destruct (setv ieee (sBack g) (dn_set n)) as [s' ok]. split; auto.
  - unfold d_done in H. injection H as <- <-. cbn [setters]. rewrite settings_snoc, <- I1. unfold d_setBase. destruct (setv ieee (sSide g) (dn_set n)) as [s' ok]. split; auto.
  - unfold d_done in H. injection H as <- <-. unfold d_setStep. destruct (a_eq ieee d (c0 ieee)); apply K; auto.
  - injection H as <- <-. apply K; auto.
  - injection H as <- <-. apply K; auto.
Qed.
Lemma limits_run : forall ops n outs, List.Forall tame (setters ops) -> d_run ieee M (d_new ieee) ops = Ok (n, outs) -> limits_inv n ops outs.
Proof.
  induction ops as [|o ops IH] using rev_ind; intros n outs T H.
  - cbn in H. injection H as <- <-. split; reflexivity.
  - apply drun_snoc in H as (n1 & o1 & a & H1 & H2 & ->). apply limits_call with n1; auto.
    + symmetry. eapply drun_length; eauto.
    + apply IH; auto. rewrite setters_app in T. apply Forall_app in T. tauto.
Qed.
End Ieee.

(** ** The exact instance *)
Definition like (n : nav) (d : dnav R) : Prop :=
  n_base n = MkBase (dn_set d q_satLin) (dn_set d q_satAng) (dn_set d q_turn) (dn_set d q_back) (dn_set d q_side)
  /\ dn_max d = n_max n /\ dn_des d = cmd_of (n_des n) /\ dn_time d = n_time n /\ dn_dt d = n_dt n /\ dn_until d = n_until n
  /\ dn_path d = map pose_of (n_path n) /\ dn_state d = option_map pose_of (n_state n) /\ dn_idx d = n_idx n /\ dn_eta d = n_eta n /\ dn_fresh d = n_fresh n.

Lemma lit1 : IZR 1 / IZR 1 = 1. Proof. field. Qed.
Lemma lit0 : IZR 0 / IZR 1 = 0. Proof. field. Qed.
Lemma exact_wrap : forall a, d_wrap reals exact_maths a = wrap_once a.
Proof. intros a. unfold d_wrap, wrap_once, d_2pi, Rgtb. cbn [a_lt a_pi a_sub a_add a_mul a_q reals x_opp exact_maths]. replace (2 / 1) with 2 by field. reflexivity. Qed.
Lemma exact_towards : forall v l a s g, d_towards reals exact_maths v l a (pose_of s) (pose_of g)
  = Ok (cmd_of (fst (towards v l a s g)), snd (towards v l a s g)).
Proof.
  intros v l a s g. unfold d_towards, towards. rewrite exact_wrap. unfold d_direction, d_linear, d_clip, d_tol, c0.
  cbn [a_lt a_le a_abs a_sub a_add a_mul a_div a_q reals x_opp x_sqrt x_sqr x_cos x_sin x_atan2 exact_maths pose_of d_x d_y d_th].
  rewrite lit0, lit1. replace (-1 / 1) with (-1) by field.
  fold (slope s g). fold (distance s g). fold tol. fold (linear_speed v l (slope s g)). fold clip. cbv zeta.
  set (diff := wrap_once _). set (sp := linear_speed _ _ _). unfold Rgtb, Rgeb.
  assert (D : (if Rleb 0 diff then Ok 1 else if Rltb diff 0 then Ok (-1) else UB) = Ok (if Rleb 0 diff then 1 else -1)).
  { rcases; auto; lra. }
  rewrite D. cbn [rbind]. clear D; destruct (Rltb (distance s g / sp) (Rabs diff / a)); reflexivity.
Qed.
Lemma exact_plan : forall n d, like n d -> match nav_plan n, d_plan reals exact_maths d with Ok n', Ok d' => like n' d' | UB, UB => True | _, _ => False end.
Proof.
  intros n d (L1 & L2 & L3 & L4 & L5 & L6 & L7 & L8 & L9 & L10 & L11). unfold nav_plan, d_plan. rewrite L2, L7, L8, L9, nth_error_map.
  destruct (nth_error (n_path n) (n_idx n)) as [g|]; cbn [option_map]; [|exact I]. destruct (n_max n) as [[[v l] a]|] eqn:Em; [|exact I].
  destruct (n_state n) as [s|] eqn:Es; cbn [option_map]; [|exact I]. rewrite exact_towards. cbn [rbind fst snd]. destruct (towards v l a s g) as [c eta]. cbn [fst snd].
  unfold like. cbn. rewrite Es, Em. repeat split; auto.
Qed.
Lemma exact_query : forall n d, like n d -> match nav_query n, d_query reals exact_maths d with Ok (n', c), Ok (d', k) => like n' d' /\ k = cmd_of c | UB, UB => True | _, _ => False end.
Proof.
  intros n d L. assert (L' := L). destruct L as (L1 & L2 & L3 & L4 & L5 & L6 & L7 & L8 & L9 & L10 & L11). unfold nav_query, d_query. rewrite L4, L6.
  cbn [a_lt reals]. assert (Z : d_zero reals = cmd_of zero_cmd) by (unfold d_zero, cmd_of, zero_cmd, c0; cbn [a_q reals c_fwd c_ang c_lat]; rewrite lit0; reflexivity).
  destruct (Rltb (n_time n) (n_until n)); [auto|].
  assert (P : forall m e, like m e -> match rbind (nav_plan m) (fun n' => Ok (n', n_des n')), rbind (d_plan reals exact_maths e) (fun n' => Ok (n', dn_des n')) with
     Ok (n', c), Ok (d', k) => like n' d' /\ k = cmd_of c | UB, UB => True | _, _ => False end).
  { intros m e J. pose proof (exact_plan m e J) as Q. destruct (nav_plan m) as [m'| |], (d_plan reals exact_maths e) as [e'| |]; try contradiction; cbn [rbind]; auto.
    split; auto. apply Q. }
  unfold nav_compute, d_compute. rewrite L11, L10, L5, L9, L7, map_length. destruct (n_fresh n) as [[|]|] eqn:Ef; [| |exact I].
  - apply P. unfold like. cbn. repeat split; auto.
  - destruct (n_eta n) as [eta|] eqn:Ee; [|exact I]. cbn [a_lt reals]. destruct (Rltb eta (n_dt n)); [destruct (Nat.eqb _ _)|].
    + cbn [rbind]. split; [|exact Z]. unfold like. cbn. rewrite Ee, Ef. repeat split; auto; congruence.
    + apply P. unfold like. cbn. rewrite Ee, Ef. repeat split; auto.
    + apply P. exact L'.
Qed.
Lemma exact_call_nav : forall n d o, like n d -> match nav_call n o, d_call reals exact_maths d (op_of o) with
  Ok (n', a), Ok (d', b) => like n' d' /\ b = out_of a | UB, UB => True | _, _ => False end.
Proof.
  intros n d o L. assert (L' := L). destruct L as (L1 & L2 & L3 & L4 & L5 & L6 & L7 & L8 & L9 & L10 & L11).
  destruct o as [t p a| |q|b|x|t|c].
  - cbn. split; [|reflexivity]. unfold like. cbn. rewrite exact_wrap. repeat split; auto.
  - cbn [nav_call d_call op_of]. pose proof (exact_query n d L') as Q. destruct (nav_query n) as [[n' c]| |], (d_query reals exact_maths d) as [[d' k]| |]; try contradiction; cbn [rbind fst snd]; auto.
    destruct Q as (Q1 & ->). split; auto.
  - cbn [nav_call d_call op_of]. unfold done, d_done, nav_setPath, d_setPath. rewrite map_length. destruct (Nat.ltb _ _); cbn [fst snd]; (split; [|reflexivity]); [exact L'|].
    unfold like. cbn. repeat split; auto.
  - destruct b as [l a|g|g|g]; cbn [nav_call d_call op_of nav_setBase]; unfold done, d_done.
    + unfold nav_setSat, d_setSat, base_setSat. cbn [setv]. unfold below0, c0. cbn [a_lt a_q reals]. rewrite lit0. destruct (Rltb l 0 || Rltb a 0); [cbn; auto|].
      unfold base_limits, nav_setMax, d_setMax, d_tol, c1. cbn [a_lt a_abs a_q a_mul a_add a_div reals]. rewrite lit1. fold tol. rewrite L1.
      cbn [b_maxLin b_maxAng b_turn b_back b_side upd field_eq_dec]. unfold upd. cbn [field_eq_dec].
      repeat match goal with |- context [field_eq_dec ?p ?q] => let v := eval vm_compute in (field_eq_dec p q) in change (field_eq_dec p q) with v; cbv iota end.
      destruct (Rltb (Rabs l) tol || _ || _); cbn [fst snd]; (split; [|reflexivity]); unfold like; cbn; rewrite ?L1; cbn; repeat split; auto.
    + unfold base_call, base_setTurn, d_setBase. cbn [setv]. unfold below0, c0. cbn [a_lt a_q reals]. rewrite lit0. rewrite L1. destruct (Rltb g 0); cbn [fst snd]; (split; [|reflexivity]); unfold like; cbn; repeat split; auto.
    + unfold base_call, base_setBack, d_setBase. cbn [setv]. unfold below0, c0. cbn [a_lt a_q reals]. rewrite lit0. rewrite L1. destruct (Rltb g 0); cbn [fst snd]; (split; [|reflexivity]); unfold like; cbn; repeat split; auto.
    + unfold base_call, base_setSide, d_setBase. cbn [setv]. unfold below0, c0. cbn [a_lt a_q reals]. rewrite lit0. rewrite L1. destruct (Rltb g 0); cbn [fst snd]; (split; [|reflexivity]); unfold like; cbn; repeat split; auto.
  - cbn [nav_call d_call op_of]. unfold done, d_done, nav_setStep, d_setStep, c0. cbn [a_eq a_q reals]. rewrite lit0. destruct (Reqb x 0); cbn [fst snd]; (split; [|reflexivity]); [exact L'|]. unfold like. cbn. repeat split; auto.
  - cbn. split; [|reflexivity]. unfold like. cbn. repeat split; auto.
  - cbn. split; [|reflexivity]. unfold like. cbn. repeat split; auto.
Qed.
Lemma exact_run_nav : forall ops n d, like n d ->
  rbind (nav_run n ops) (fun x => Ok (map out_of (snd x))) = rbind (d_run reals exact_maths d (map op_of ops)) (fun x => Ok (snd x)).
Proof.
  induction ops as [|o ops IH]; intros n d L; [reflexivity|]. cbn [map nav_run d_run]. pose proof (exact_call_nav n d o L) as Q.
  destruct (nav_call n o) as [[n1 a]| |], (d_call reals exact_maths d (op_of o)) as [[d1 b]| |]; try contradiction; cbn [rbind fst snd]; auto. destruct Q as (Q1 & ->).
  specialize (IH n1 d1 Q1). destruct (nav_run n1 ops) as [[n2 o2]| |], (d_run reals exact_maths d1 (map op_of ops)) as [[d2 k2]| |]; cbn in *; try discriminate; auto.
  injection IH as <-. reflexivity.
Qed.
Lemma new_like : like nav_new (d_new reals).
Proof.
  unfold like, nav_new, d_new, base_new, zero_cmd, d_zero, cmd_of, c0. cbn [dn_set dn_max dn_des dn_time dn_dt dn_until dn_path dn_state dn_idx dn_eta dn_fresh
    n_base n_max n_des n_time n_dt n_until n_path n_state n_idx n_eta n_fresh initv c_fwd c_ang c_lat]. unfold c0, c1. cbn [a_q reals]. rewrite lit0, lit1. replace (-1 / 1) with (-1) by field. repeat split; auto.
Qed.
