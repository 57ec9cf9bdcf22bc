(** Lemmas about the navigation controller. *)
From Coq Require Import Reals Lra Lia List Bool PeanoNat.
From Verif Require Import Prelude UnicycleFoot Ellipse Controllers ControlSpec ControlProofs EllipseProofs Navigation NavigationSpec.
Import ListNotations.
Open Scope R_scope.

Lemma last_of_app : forall A B (f : A -> option B) l d x,
  last_of f d (l ++ [x]) = match f x with Some y => y | None => last_of f d l end.
Proof. intros A B f l. induction l as [|a l IH]; intros d x; cbn; [reflexivity|apply IH]. Qed.
Lemma base_ops_app : forall a b, base_ops (a ++ b) = base_ops a ++ base_ops b.
Proof. induction a as [|o a IH]; intros b; cbn; [reflexivity|]. destruct o; cbn; rewrite ?IH; reflexivity. Qed.

Lemma run_app : forall a b n, nav_run n (a ++ b) =
  match nav_run n a with
  | Ok (n1, o1) => match nav_run n1 b with Ok (n2, o2) => Ok (n2, o1 ++ o2) | Fail => Fail | UB => UB end
  | Fail => Fail | UB => UB end.
Proof.
  induction a as [|o a IH]; intros b n; cbn.
  - destruct (nav_run n b) as [[? ?]| |]; reflexivity.
  - destruct (nav_call n o) as [[n1 r]| |]; cbn; try reflexivity. rewrite IH.
    destruct (nav_run n1 a) as [[n2 o1]| |]; cbn; try reflexivity.
    destruct (nav_run n2 b) as [[n3 o2]| |]; cbn; reflexivity.
Qed.
Lemma run_snoc : forall ops o n n' outs, nav_run n (ops ++ [o]) = Ok (n', outs) ->
  exists n1 o1 a, nav_run n ops = Ok (n1, o1) /\ nav_call n1 o = Ok (n', a) /\ outs = o1 ++ [a].
Proof.
  intros ops o n n' outs H. rewrite run_app in H. destruct (nav_run n ops) as [[n1 o1]| |]; try discriminate.
  cbn in H. destruct (nav_call n1 o) as [[n2 a]| |] eqn:E; cbn in H; try discriminate. injection H as <- <-.
  exists n1, o1, a. auto.
Qed.
Lemma run_length : forall ops n n' outs, nav_run n ops = Ok (n', outs) -> length outs = length ops.
Proof.
  induction ops as [|o ops IH]; intros n n' outs H; cbn in H; [injection H as <- <-; reflexivity|].
  destruct (nav_call n o) as [[n1 a]| |]; cbn in H; try discriminate.
  destruct (nav_run n1 ops) as [[n2 o2]| |] eqn:E; cbn in H; try discriminate. injection H as <- <-. cbn. f_equal. eauto.
Qed.
Lemma run_not_fail : forall ops n, nav_run n ops <> Fail.
Proof.
  induction ops as [|o ops IH]; intros n; cbn; [discriminate|].
  assert (H : nav_call n o <> Fail).
  { destruct o; cbn; try discriminate. unfold nav_query. destruct (Rltb _ _); cbn; [discriminate|].
    assert (P : forall m, nav_plan m <> Fail).
    { intros m. unfold nav_plan. destruct (nth_error _ _); [|discriminate]. destruct (n_max m) as [[[? ?] ?]|]; [|discriminate].
      destruct (n_state m); [|discriminate]. destruct (towards _ _ _ _ _). discriminate. }
    assert (Q : nav_compute n <> Fail).
    { unfold nav_compute. destruct (n_fresh n) as [[|]|]; [apply P| |discriminate].
      destruct (n_eta n); [|discriminate]. destruct (Rltb _ _); [|apply P]. destruct (Nat.eqb _ _); [discriminate|apply P]. }
    destruct (nav_compute n); cbn; congruence. }
  destruct (nav_call n o) as [[n1 a]| |]; cbn; try congruence. specialize (IH n1).
  destruct (nav_run n1 ops) as [[? ?]| |]; cbn; congruence.
Qed.

(** ** The base part agrees with the history *)
Lemma base_hist_snoc : forall ops o, base_history (ops ++ [o]) = base_run (base_history ops) o.
Proof. intros. unfold base_history. rewrite fold_left_app. reflexivity. Qed.

Lemma plan_frame : forall n n', nav_plan n = Ok n' ->
  n_base n' = n_base n /\ n_max n' = n_max n /\ n_dt n' = n_dt n /\ n_path n' = n_path n /\ n_idx n' = n_idx n
  /\ n_fresh n' = n_fresh n /\ n_state n' = n_state n /\ n_until n' = n_until n /\ n_time n' = n_time n
  /\ exists g v l a s, nth_error (n_path n) (n_idx n) = Some g /\ n_max n = Some (v, l, a) /\ n_state n = Some s
     /\ n_des n' = fst (towards v l a s g) /\ n_eta n' = Some (snd (towards v l a s g)).
Proof.
  intros n n' H. unfold nav_plan in H. destruct (nth_error _ _) as [g|] eqn:E1; [|discriminate].
  destruct (n_max n) as [[[v l] a]|] eqn:E2; [|discriminate]. destruct (n_state n) as [s|] eqn:E3; [|discriminate].
  destruct (towards v l a s g) as [c eta] eqn:E. injection H as <-. do 9 (split; [cbn; congruence|]).
  exists g, v, l, a, s. rewrite E. auto 6.
Qed.

(** All shapes of a successful query. *)
Inductive query_shape (n n' : nav) : cmd -> Prop :=
| QPause : n_time n < n_until n -> n' = n -> query_shape n n' zero_cmd
| QStop : n_until n <= n_time n -> at_goal n -> n' = nav_with_des zero_cmd n -> query_shape n n' zero_cmd
| QFresh : n_until n <= n_time n -> n_fresh n = Some true -> nav_plan (nav_with_fresh (Some false) n) = Ok n' -> query_shape n n' (n_des n')
| QNext : forall eta, n_until n <= n_time n -> n_fresh n = Some false -> n_eta n = Some eta -> eta < n_dt n -> S (n_idx n) <> length (n_path n) ->
    nav_plan (nav_with_idx (S (n_idx n)) n) = Ok n' -> query_shape n n' (n_des n')
| QGo : forall eta, n_until n <= n_time n -> n_fresh n = Some false -> n_eta n = Some eta -> n_dt n <= eta -> nav_plan n = Ok n' -> query_shape n n' (n_des n').

Lemma query_shapes : forall n n' c, nav_query n = Ok (n', c) -> query_shape n n' c.
Proof.
  intros n n' c H. unfold nav_query in H. destruct (Rltb (n_time n) (n_until n)) eqn:Et.
  - injection H as <- <-. apply Rltb_true in Et. constructor; auto.
  - apply Rltb_false in Et. unfold nav_compute in H. destruct (n_fresh n) as [[|]|] eqn:Ef; [| |discriminate].
    + destruct (nav_plan _) as [m| |] eqn:Ep; cbn in H; try discriminate. injection H as <- <-. apply QFresh; auto.
    + destruct (n_eta n) as [eta|] eqn:Ee; [|discriminate]. destruct (Rltb eta (n_dt n)) eqn:Ed.
      * apply Rltb_true in Ed. destruct (Nat.eqb (S (n_idx n)) (length (n_path n))) eqn:En.
        -- apply Nat.eqb_eq in En. cbn in H. injection H as <- <-. apply QStop; auto. repeat split; eauto.
        -- apply Nat.eqb_neq in En. destruct (nav_plan _) as [m| |] eqn:Ep; cbn in H; try discriminate. injection H as <- <-. apply QNext with eta; auto.
      * apply Rltb_false in Ed. destruct (nav_plan _) as [m| |] eqn:Ep; cbn in H; try discriminate. injection H as <- <-. apply QGo with eta; auto.
Qed.

(** ** Invariant of every history *)
Record nav_inv (n : nav) (ops : list navop) : Prop := {
  iv_base : n_base n = base_history (base_ops ops);
  iv_max : n_max n = limits_of ops;
  iv_path : match current_path ops with
            | Some p => n_path n = p /\ (1 <= n_idx n < length p)%nat
                        /\ (n_fresh n = Some true /\ n_idx n = 1%nat \/ n_fresh n = Some false /\ n_eta n <> None)
            | None => n_path n = [] /\ n_idx n = 1%nat /\ n_fresh n = None
            end;
  iv_max_pos : match n_max n with Some (v, l, a) => tol <= v /\ tol <= l /\ tol <= a | None => True end }.

Lemma current_path_long : forall ops p, current_path ops = Some p -> (2 <= length p)%nat.
Proof.
  intros ops. unfold current_path. assert (G : forall l d, (match d with Some p => (2 <= length p)%nat | None => True end) ->
    forall p, last_of (fun o => match o with NPath (a :: b :: r) => Some (Some (a :: b :: r)) | _ => None end) d l = Some p -> (2 <= length p)%nat).
  { induction l as [|o l IH]; intros d Hd p H; cbn in H.
    - subst d. exact Hd.
    - apply IH in H; auto. destruct o as [| |q| | | |]; auto. destruct q as [|x [|y q]]; auto. cbn. lia. }
  apply G. exact I.
Qed.

Lemma limits_snoc : forall ops o, limits_of (ops ++ [o]) =
  match o with
  | NBase (BSat lin ang) =>
      let side := set_side (base_ops ops) in
      let turn := set_turn (base_ops ops) in
      if Rle_dec 0 lin then if Rle_dec 0 ang then
        if Rle_dec (1 / 1000000) lin then
          if Rle_dec (1 / 1000000) (lin * side) then
            if Rle_dec (1 / 1000000) (ang / (1 + turn)) then Some (lin, lin * side, ang / (1 + turn))
            else limits_of ops
          else limits_of ops
        else limits_of ops
      else limits_of ops else limits_of ops
  | _ => limits_of ops
  end.
Proof. intros ops o. unfold limits_of. rewrite rev_app_distr. cbn [rev app limits_rev]. rewrite rev_involutive. reflexivity. Qed.

Lemma Rltb_abs_tol : forall x, 0 <= x -> Rltb (Rabs x) tol = (if Rle_dec (1 / 1000000) x then false else true).
Proof.
  intros x Hx. rewrite Rabs_right by lra. unfold tol. destruct (Rle_dec _ x).
  - apply Rltb_false; lra. - apply Rltb_true; lra.
Qed.

Lemma call_inv : forall ops o n n' a, nav_inv n ops -> nav_call n o = Ok (n', a) -> nav_inv n' (ops ++ [o]).
Proof.
  intros ops o n n' a [B M P T] H.
  assert (CP : current_path (ops ++ [o]) = match o with NPath (x :: y :: r) => Some (x :: y :: r) | _ => current_path ops end).
  { unfold current_path. rewrite last_of_app. destruct o as [| |q| | | |]; try reflexivity. destruct q as [|x [|y q]]; reflexivity. }
  assert (BO : base_ops (ops ++ [o]) = base_ops ops ++ match o with NBase b => [b] | _ => [] end).
  { rewrite base_ops_app. destruct o; reflexivity. }
  destruct o as [t p ang| |q|b|d|t|c]; cbn in H; rewrite ?app_nil_r in BO.
  - injection H as <- <-. split; cbn; rewrite ?CP, ?BO, ?limits_snoc; auto.
  - destruct (nav_query n) as [[m c]| |] eqn:E; cbn in H; try discriminate. injection H as <- <-.
    apply query_shapes in E. pose proof (current_path_long ops) as HL.
    assert (NF : forall x : option R, (exists y, x = Some y) -> x <> None) by (intros x [y ->]; discriminate).
    destruct E as [_ ->|_ (G1 & G2 & G3) ->|_ Hf Hp|eta _ Hf He Hlt Hne Hp|eta _ Hf He Hge Hp].
    + split; rewrite ?CP, ?BO, ?limits_snoc; auto.
    + split; cbn; rewrite ?CP, ?BO, ?limits_snoc; auto.
    + apply plan_frame in Hp as (p1 & p2 & p3 & p4 & p5 & p6 & _ & _ & _ & g & v & l & aa & s & _ & _ & _ & _ & p7). cbn in *.
      split; rewrite ?CP, ?BO, ?limits_snoc, ?p1, ?p2, ?p4, ?p5, ?p6; auto.
      destruct (current_path ops) as [p|]; [|destruct P as (_ & _ & P); congruence].
      destruct P as (P1 & P2 & P3). split; [auto|]. split; [auto|]. right. split; auto. apply NF; eauto.
    + apply plan_frame in Hp as (p1 & p2 & p3 & p4 & p5 & p6 & _ & _ & _ & g & v & l & aa & s & Hg & _ & _ & _ & p7). cbn in *.
      split; rewrite ?CP, ?BO, ?limits_snoc, ?p1, ?p2, ?p4, ?p5, ?p6; auto.
      destruct (current_path ops) as [p|]; [|destruct P as (_ & _ & P); congruence].
      destruct P as (P1 & P2 & P3). split; [auto|]. split; [rewrite P1 in *; lia|]. right. split; auto. apply NF; eauto.
    + apply plan_frame in Hp as (p1 & p2 & p3 & p4 & p5 & p6 & _ & _ & _ & g & v & l & aa & s & Hg & _ & _ & _ & p7). cbn in *.
      split; rewrite ?CP, ?BO, ?limits_snoc, ?p1, ?p2, ?p4, ?p5, ?p6; auto.
      destruct (current_path ops) as [p|]; [|destruct P as (_ & _ & P); congruence].
      destruct P as (P1 & P2 & P3). split; [auto|]. split; [auto|]. right. split; auto. apply NF; eauto.
  - unfold done in H. injection H as <- <-. unfold nav_setPath. destruct q as [|x [|y q]].
    + cbn. split; rewrite ?CP, ?BO, ?limits_snoc; auto.
    + cbn. split; rewrite ?CP, ?BO, ?limits_snoc; auto.
    + cbn. split; rewrite ?CP, ?BO, ?limits_snoc; cbn; auto. split; auto. split; [lia|]. left. auto.
  - unfold done in H. injection H as <- <-. pose proof (history_agrees (base_ops ops)) as [A1 A2 A3 A4].
    pose proof (base_history_ok (base_ops ops)) as [_ Ht _ Hd].
    assert (B' : n_base (fst (nav_setBase b n)) = base_run (n_base n) b).
    { destruct b as [lin ang|g|g|g]; cbn.
      - unfold base_run, nav_setSat. cbn [base_call]. destruct (base_setSat lin ang (n_base n)) as [bb [|]] eqn:Eb; cbn.
        + unfold nav_setMax. destruct (_ || _); reflexivity.
        + unfold base_setSat in Eb. destruct (_ || _) in Eb; [injection Eb as <-; reflexivity|discriminate].
      - unfold base_run. cbn [base_call]. destruct (base_setTurn _ _); reflexivity.
      - unfold base_run. cbn [base_call]. destruct (base_setBack _ _); reflexivity.
      - unfold base_run. cbn [base_call]. destruct (base_setSide _ _); reflexivity. }
    assert (F : n_path (fst (nav_setBase b n)) = n_path n /\ n_idx (fst (nav_setBase b n)) = n_idx n
       /\ n_fresh (fst (nav_setBase b n)) = n_fresh n /\ n_eta (fst (nav_setBase b n)) = n_eta n).
    { destruct b as [lin ang|g|g|g]; cbn; try (destruct (base_call _ _); cbn; auto; fail).
      - unfold nav_setSat. destruct (base_setSat lin ang (n_base n)) as [bb [|]]; [|auto].
        destruct (base_limits bb) as [[? ?] ?]. unfold nav_setMax. destruct (_ || _); auto.
      - destruct (base_setTurn _ _); auto.
      - destruct (base_setBack _ _); auto.
      - destruct (base_setSide _ _); auto. }
    destruct F as (F1 & F2 & F3 & F4).
    assert (M' : n_max (fst (nav_setBase b n)) = limits_of (ops ++ [NBase b])).
    { rewrite limits_snoc. destruct b as [lin ang|g|g|g]; cbv zeta.
      2: cbn; destruct (base_setTurn _ _); auto. 2: cbn; destruct (base_setBack _ _); auto. 2: cbn; destruct (base_setSide _ _); auto.
      cbn. unfold nav_setSat, base_setSat. rewrite <- A2, <- A4, <- B in *.
      destruct (Rle_dec 0 lin) as [h1|h1].
      2: { replace (Rltb lin 0) with true by (symmetry; apply Rltb_true; lra). exact M. }
      replace (Rltb lin 0) with false by (symmetry; apply Rltb_false; lra).
      destruct (Rle_dec 0 ang) as [h2|h2].
      2: { replace (Rltb ang 0) with true by (symmetry; apply Rltb_true; lra). exact M. }
      replace (Rltb ang 0) with false by (symmetry; apply Rltb_false; lra). cbn [orb base_limits b_maxLin b_maxAng b_turn b_side].
      unfold nav_setMax. assert (h3 : 0 <= lin * b_side (n_base n)) by (apply Rmult_le_pos; lra).
      assert (h4 : 0 <= ang / (1 + b_turn (n_base n))) by (apply Rmult_le_pos; [lra|left; apply Rinv_0_lt_compat; lra]).
      rewrite !Rltb_abs_tol by assumption. rewrite !Rabs_right by lra.
      destruct (Rle_dec _ lin); [|exact M]. destruct (Rle_dec _ (lin * _)); [|exact M]. destruct (Rle_dec _ (ang / _)); [|exact M].
      reflexivity. }
    split; rewrite ?BO, ?base_hist_snoc, ?B', ?CP, ?F1, ?F2, ?F3, ?F4; try congruence; auto.
    rewrite M', limits_snoc. rewrite M in T. destruct b; auto. cbv zeta.
    repeat (destruct (Rle_dec _ _); auto).
  - unfold done in H. injection H as <- <-. unfold nav_setStep. destruct (Reqb _ _); cbn; split; cbn; rewrite ?CP, ?BO, ?limits_snoc; auto.
  - injection H as <- <-. split; cbn; rewrite ?CP, ?BO, ?limits_snoc; auto.
  - injection H as <- <-. split; cbn; rewrite ?CP, ?BO, ?limits_snoc; auto.
Qed.

Lemma run_inv : forall ops n outs, nav_run nav_new ops = Ok (n, outs) -> nav_inv n ops.
Proof.
  intros ops. induction ops as [|o ops IH] using rev_ind; intros n outs H.
  - cbn in H. injection H as <- <-. split; cbn; auto.
  - apply run_snoc in H as (n1 & o1 & a & H1 & H2 & _). eapply call_inv; eauto.
Qed.

(** ** Undefined behaviour *)
Record nav_ready (n : nav) : Prop := {
  rd_max : n_max n <> None;
  rd_state : n_state n <> None;
  rd_fresh : n_fresh n = Some true \/ (n_fresh n = Some false /\ n_eta n <> None);
  rd_idx : (n_idx n < length (n_path n))%nat }.

Lemma plan_ready : forall n, n_max n <> None -> n_state n <> None -> (n_idx n < length (n_path n))%nat -> exists n', nav_plan n = Ok n'.
Proof.
  intros n A B C. unfold nav_plan. apply nth_error_Some in C. destruct (nth_error _ _); [|congruence].
  destruct (n_max n) as [[[v l] a]|]; [|congruence]. destruct (n_state n); [|congruence].
  destruct (towards _ _ _ _ _). eauto.
Qed.
Lemma query_ready : forall n, nav_ready n -> exists n' c, nav_query n = Ok (n', c).
Proof.
  intros n [A B C D]. unfold nav_query. destruct (Rltb _ _); [eauto|]. unfold nav_compute.
  destruct C as [-> | [-> C]].
  - destruct (plan_ready (nav_with_fresh (Some false) n) A B D) as [m ->]. cbn. eauto.
  - destruct (n_eta n) as [eta|]; [|congruence]. destruct (Rltb _ _).
    + destruct (Nat.eqb _ _) eqn:E; [cbn; eauto|]. apply Nat.eqb_neq in E.
      destruct (plan_ready (nav_with_idx (S (n_idx n)) n)) as [m ->]; auto. cbn. lia. cbn; eauto.
    + destruct (plan_ready n A B D) as [m ->]. cbn. eauto.
Qed.
Lemma call_ready : forall n o, nav_ready n -> exists n' a, nav_call n o = Ok (n', a) /\ nav_ready n'.
Proof.
  intros n o H. pose proof H as [A B C D]. destruct o as [t p ang| |q|b|d|t|c]; cbn.
  - do 2 eexists; split; [reflexivity|]. split; cbn; auto; congruence.
  - destruct (query_ready n H) as (n' & c & E). rewrite E. cbn. do 2 eexists; split; [reflexivity|].
    apply query_shapes in E. assert (NF : forall x : option R, (exists y, x = Some y) -> x <> None) by (intros x [y ->]; discriminate).
    destruct E as [_ ->|_ _ ->|_ Hf Hp|eta _ Hf He Hlt Hne Hp|eta _ Hf He Hge Hp]; auto.
    + split; auto.
    + apply plan_frame in Hp as (p1 & p2 & p3 & p4 & p5 & p6 & p8 & _ & _ & g & v & l & aa & s & _ & _ & _ & _ & p7). cbn in *.
      split; rewrite ?p1, ?p2, ?p4, ?p5, ?p6, ?p8; auto. right. split; auto. apply NF; eauto.
    + apply plan_frame in Hp as (p1 & p2 & p3 & p4 & p5 & p6 & p8 & _ & _ & g & v & l & aa & s & _ & _ & _ & _ & p7). cbn in *.
      split; rewrite ?p1, ?p2, ?p4, ?p5, ?p6, ?p8; auto. right. split; auto. apply NF; eauto. lia.
    + apply plan_frame in Hp as (p1 & p2 & p3 & p4 & p5 & p6 & p8 & _ & _ & g & v & l & aa & s & _ & _ & _ & _ & p7). cbn in *.
      split; rewrite ?p1, ?p2, ?p4, ?p5, ?p6, ?p8; auto. right. split; auto. apply NF; eauto.
  - do 2 eexists; split; [reflexivity|]. unfold nav_setPath. destruct (Nat.ltb _ _) eqn:E; [exact H|].
    apply Nat.ltb_ge in E. split; cbn; auto; lia.
  - do 2 eexists; split; [reflexivity|].
    assert (K : exists bb mm, fst (nav_setBase b n) = nav_with_max mm (nav_with_base bb n) /\ mm <> None).
    { assert (Z : forall bb, nav_with_base bb n = nav_with_max (n_max n) (nav_with_base bb n)) by reflexivity.
      destruct b as [lin ang|g|g|g]; cbn.
      - unfold nav_setSat. destruct (base_setSat lin ang (n_base n)) as [bb [|]].
        + destruct (base_limits bb) as [[? ?] ?]. unfold nav_setMax. destruct (_ || _); cbn; eauto.
          exists bb. eexists. split; [reflexivity|discriminate].
        + exists (n_base n), (n_max n). destruct n; cbn; auto.
      - destruct (base_setTurn _ _); cbn; eauto.
      - destruct (base_setBack _ _); cbn; eauto.
      - destruct (base_setSide _ _); cbn; eauto. }
    destruct K as (bb & mm & -> & Hm). split; cbn; auto.
  - do 2 eexists; split; [reflexivity|]. unfold nav_setStep. destruct (Reqb _ _); [exact H|]. split; cbn; auto.
  - do 2 eexists; split; [reflexivity|]. split; cbn; auto.
  - do 2 eexists; split; [reflexivity|]. split; cbn; auto.
Qed.
Lemma run_ready : forall ops n, nav_ready n -> exists n' outs, nav_run n ops = Ok (n', outs) /\ nav_ready n'.
Proof.
  induction ops as [|o ops IH]; intros n H; cbn; [eauto|].
  destruct (call_ready n o H) as (n1 & a & -> & H1). destruct (IH n1 H1) as (n2 & o2 & E2 & H2). cbn. rewrite E2. cbn. eauto.
Qed.

Lemma max_kept : forall n o n' a, nav_call n o = Ok (n', a) -> n_max n <> None -> n_max n' <> None.
Proof.
  intros n o n' a H N. destruct o as [t p ang| |q|b|d|t|c]; cbn in H.
  - injection H as <- <-; auto.
  - destruct (nav_query n) as [[m c]| |] eqn:E; cbn in H; try discriminate. injection H as <- <-. apply query_shapes in E.
    destruct E as [_ ->|_ _ ->|_ Hf Hp|eta _ Hf He Hlt Hne Hp|eta _ Hf He Hge Hp]; auto;
      apply plan_frame in Hp as (_ & p2 & _); rewrite p2; auto.
  - injection H as <- <-. unfold nav_setPath. destruct (Nat.ltb _ _); auto.
  - injection H as <- <-. destruct b as [lin ang|g|g|g]; cbn.
    + unfold nav_setSat. destruct (base_setSat lin ang (n_base n)) as [bb [|]]; auto.
      destruct (base_limits bb) as [[? ?] ?]. unfold nav_setMax. destruct (_ || _); cbn; auto. discriminate.
    + destruct (base_setTurn _ _); auto.
    + destruct (base_setBack _ _); auto.
    + destruct (base_setSide _ _); auto.
  - injection H as <- <-. unfold nav_setStep. destruct (Reqb _ _); auto.
  - injection H as <- <-; auto.
  - injection H as <- <-; auto.
Qed.
Lemma state_kept : forall n o n' a, nav_call n o = Ok (n', a) -> n_state n <> None -> n_state n' <> None.
Proof.
  intros n o n' a H N. destruct o as [t p ang| |q|b|d|t|c]; cbn in H.
  - injection H as <- <-; discriminate.
  - destruct (nav_query n) as [[m c]| |] eqn:E; cbn in H; try discriminate. injection H as <- <-. apply query_shapes in E.
    destruct E as [_ ->|_ _ ->|_ Hf Hp|eta _ Hf He Hlt Hne Hp|eta _ Hf He Hge Hp]; auto;
      apply plan_frame in Hp as (_ & _ & _ & _ & _ & _ & p2 & _); rewrite p2; auto.
  - injection H as <- <-. unfold nav_setPath. destruct (Nat.ltb _ _); auto.
  - injection H as <- <-. destruct b as [lin ang|g|g|g]; cbn.
    + unfold nav_setSat. destruct (base_setSat lin ang (n_base n)) as [bb [|]]; auto.
      destruct (base_limits bb) as [[? ?] ?]. unfold nav_setMax. destruct (_ || _); cbn; auto.
    + destruct (base_setTurn _ _); auto.
    + destruct (base_setBack _ _); auto.
    + destruct (base_setSide _ _); auto.
  - injection H as <- <-. unfold nav_setStep. destruct (Reqb _ _); auto.
  - injection H as <- <-; auto.
  - injection H as <- <-; auto.
Qed.
Lemma state_set : forall ops n n' outs t p a, nav_run n ops = Ok (n', outs) -> In (NFeedback t p a) ops \/ n_state n <> None -> n_state n' <> None.
Proof.
  induction ops as [|o ops IH]; intros n n' outs t p a H D; cbn in H.
  - injection H as <- <-. destruct D as [[]|D]; auto.
  - destruct (nav_call n o) as [[n1 r]| |] eqn:E; cbn in H; try discriminate.
    destruct (nav_run n1 ops) as [[n2 o2]| |] eqn:E2; cbn in H; try discriminate. injection H as <- <-.
    apply IH with (t := t) (p := p) (a := a) in E2; auto. destruct D as [[->|D]|D]; auto.
    + right. cbn in E. injection E as <- <-. discriminate.
    + right. eapply state_kept; eauto.
Qed.

(** ** Motion *)
Lemma wrap_congruent : forall a, same_heading (wrap_once a) a.
Proof.
  intros a. unfold wrap_once, same_heading. rcases.
  all: first [exists (-1)%Z; ring | exists 1%Z; ring | exists 0%Z; ring].
Qed.
Lemma wrap_range : forall a, Rabs a <= 3 * PI -> - PI <= wrap_once a <= PI.
Proof.
  intros a H. pose proof PI_RGT_0. assert (- (3 * PI) <= a <= 3 * PI) by (split; unfold Rabs in H; destruct (Rcase_abs a); lra).
  unfold wrap_once. rcases; lra.
Qed.

Lemma tol_pos : 0 < tol. Proof. unfold tol. lra. Qed.
Lemma speed_pos : forall v l sl, 0 < v -> 0 < l -> 0 < linear_speed v l sl.
Proof.
  intros v l sl Hv Hl. pose proof tol_pos. unfold linear_speed. cbv zeta. rcases; auto.
  - apply Rdiv_lt_0_compat; lra. - apply Rdiv_lt_0_compat; lra.
Qed.
Lemma speed_components : forall v l sl, 0 < v -> 0 < l ->
  Rabs (linear_speed v l sl * cos sl) <= Rmax v (tol * l) /\ Rabs (linear_speed v l sl * sin sl) <= Rmax l (tol * v).
Proof.
  intros v l sl Hv Hl. pose proof tol_pos. pose proof (speed_pos v l sl Hv Hl) as Hp. rewrite !Rabs_mult, (Rabs_right (linear_speed v l sl)) by lra.
  pose proof (Rmax_l v (tol * l)). pose proof (Rmax_r v (tol * l)). pose proof (Rmax_l l (tol * v)). pose proof (Rmax_r l (tol * v)).
  assert (C1 : Rabs (cos sl) <= 1) by (apply Rabs_le; pose proof (COS_bound sl); lra).
  assert (S1 : Rabs (sin sl) <= 1) by (apply Rabs_le; pose proof (SIN_bound sl); lra).
  pose proof (Rabs_pos (cos sl)). pose proof (Rabs_pos (sin sl)).
  unfold linear_speed in *. cbv zeta in *. clear Hp.
  destruct (Rltb (Rabs (cos sl)) tol) eqn:E1; [apply Rltb_true in E1|apply Rltb_false in E1].
  - split.
    + rewrite Rmult_comm. apply Rle_trans with (tol * l); [|lra]. apply Rmult_le_compat_r; lra.
    + apply Rle_trans with (l * 1); [|lra]. apply Rmult_le_compat_l; lra.
  - destruct (Rltb (Rabs (sin sl)) tol) eqn:E2; [apply Rltb_true in E2|apply Rltb_false in E2].
    + split.
      * apply Rle_trans with (v * 1); [|lra]. apply Rmult_le_compat_l; lra.
      * rewrite Rmult_comm. apply Rle_trans with (tol * v); [|lra]. apply Rmult_le_compat_r; lra.
    + assert (Ev : v / Rabs (cos sl) * Rabs (cos sl) = v) by (field; lra).
      assert (El : l / Rabs (sin sl) * Rabs (sin sl) = l) by (field; lra).
      destruct (Rltb (v / Rabs (cos sl)) (l / Rabs (sin sl))) eqn:E3; [apply Rltb_true in E3|apply Rltb_false in E3]; split.
      * lra.
      * apply Rle_trans with (l / Rabs (sin sl) * Rabs (sin sl)); [|lra]. apply Rmult_le_compat_r; lra.
      * apply Rle_trans with (v / Rabs (cos sl) * Rabs (cos sl)); [|lra]. apply Rmult_le_compat_r; lra.
      * lra.
Qed.
Lemma speed_bound : forall v l sl, 0 < v -> 0 < l -> linear_speed v l sl <= sqrt (v ^ 2 + l ^ 2).
Proof.
  intros v l sl Hv Hl. pose proof tol_pos. unfold linear_speed. cbv zeta.
  assert (B1 : l <= sqrt (v ^ 2 + l ^ 2)). { rewrite <- (sqrt_pow2 l) at 1 by lra. apply sqrt_le_1_alt. nra. }
  assert (B2 : v <= sqrt (v ^ 2 + l ^ 2)). { rewrite <- (sqrt_pow2 v) at 1 by lra. apply sqrt_le_1_alt. nra. }
  destruct (Rltb (Rabs (cos sl)) tol) eqn:E1; [exact B1|apply Rltb_false in E1].
  destruct (Rltb (Rabs (sin sl)) tol) eqn:E2; [exact B2|apply Rltb_false in E2].
  set (m := if Rltb _ _ then _ else _).
  assert (Hx : 0 < v / Rabs (cos sl)) by (apply Rdiv_lt_0_compat; lra).
  assert (Hy : 0 < l / Rabs (sin sl)) by (apply Rdiv_lt_0_compat; lra).
  assert (Hm : 0 < m /\ m <= v / Rabs (cos sl) /\ m <= l / Rabs (sin sl)). { unfold m. rcases; lra. }
  destruct Hm as (M0 & M1 & M2). rewrite <- (sqrt_pow2 m) by lra. apply sqrt_le_1_alt.
  assert (A : m * Rabs (cos sl) <= v). { apply Rmult_le_compat_r with (r := Rabs (cos sl)) in M1; [|lra]. replace (v / Rabs (cos sl) * Rabs (cos sl)) with v in M1 by (field; lra). lra. }
  assert (B : m * Rabs (sin sl) <= l). { apply Rmult_le_compat_r with (r := Rabs (sin sl)) in M2; [|lra]. replace (l / Rabs (sin sl) * Rabs (sin sl)) with l in M2 by (field; lra). lra. }
  assert (A2 : (m * Rabs (cos sl)) ^ 2 <= v ^ 2). { apply pow_incr. split; [apply Rmult_le_pos; lra|lra]. }
  assert (B3 : (m * Rabs (sin sl)) ^ 2 <= l ^ 2). { apply pow_incr. split; [apply Rmult_le_pos; lra|lra]. }
  rewrite !Rpow_mult_distr, !pow2_abs in *. replace (m ^ 2) with (m ^ 2 * (cos sl * cos sl + sin sl * sin sl)) by (rewrite cs2; ring). lra.
Qed.
