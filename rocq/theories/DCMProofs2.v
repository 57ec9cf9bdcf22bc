(** Lemmas about the construction of the DCM trajectory. *)
From Coq Require Import String Reals Lra Lia ZArith List Bool.
From Verif Require Import Prelude EvalTac Rounding FootPrint GenPhases GenSpec ZMP ZMPSpec DCM DCMSpec DCMProofs.
Import ListNotations.
Open Scope R_scope.
Notation Forall := List.Forall.

Lemma next_ss_inv : forall tr s, next_ss tr = Ok s -> exists r, tr = SubS s :: r.
Proof. intros [|[s'| |] r] s H; try discriminate. injection H as ->. eexists; reflexivity. Qed.
Lemma lasting_cons : forall s r, sub_t0 s < sub_t1 s -> lasting (s :: r) = s :: lasting r.
Proof. intros s r H. cbn [lasting filter]. rewrite (proj2 (Rltb_true _ _)) by auto. reflexivity. Qed.
Lemma removelast_cons : forall (A : Type) (x : A) l, l <> [] -> removelast (x :: l) = x :: removelast l.
Proof. intros A x [|y l] H; [contradiction|reflexivity]. Qed.
Lemma supports_cons_d : forall x r, (forall s, x <> SubS s) -> supports (x :: r) = supports r.
Proof. intros [s| |] r H; [contradiction (H s eq_refl)|reflexivity|reflexivity]. Qed.
Lemma mk_3_not_ss : forall a b om x s, mk_3 a b om = Ok x -> x <> SubS s.
Proof. intros a b om x s H. unfold mk_3 in H. destruct (asserted _ _ _); [|discriminate]. injection H as <-. discriminate. Qed.
Lemma checked_in : forall (A : Type) t0 t1 t tol (x : A), t0 <= t <= t1 -> 0 <= tol -> checked t0 t1 t tol x = Ok x.
Proof.
  intros A t0 t1 t tol x H1 H2. unfold checked, in_domain, Rgeb. rewrite (proj2 (Rleb_true (t0 - tol) t)), (proj2 (Rleb_true t (t1 + tol))) by lra. reflexivity.
Qed.

Local Ltac fa t := repeat (apply Forall_cons; [solve [t]|]); apply Forall_nil.

Section Building.
Variable c : dcfg.
Variable Z : ztimes.
Variable dT : R.
Variable ord : list step.
Variable shift : list nat.
Variable m : nat.
Variable zs : nat -> vec2.
Hypothesis Hd : 0 < dT.
Hypothesis Hm : (1 <= m)%nat.
Hypothesis Lo : length ord = (m + 2)%nat.
Hypothesis Ls : length shift = (2 * m + 2)%nat.
Hypothesis Inc : forall j, (j < 2 * m + 1)%nat -> (nth j shift 0 < nth (S j) shift 0)%nat.
Hypothesis H0 : nth 0 shift 0%nat = 0%nat.
Hypothesis Hz : forall k s, nth_error ord k = Some s -> zmp_at c s = Ok (zs k).
Hypothesis Ho : 0 < dc_om c.
Hypothesis Hst : 0 <= dc_still c < 1.
Hypothesis Hp : z_pause Z = true -> 0 < z_end Z /\ 0 < z_nom Z.

Definition b (k : nat) : R := INR (nth k shift 0%nat) * dT.
Let E := b (2 * m + 1).
Definition fin : vec2 := mid (zs (m + 1)) (zs m).
Definition tm : R := b (2 * m) + (E - b (2 * m)) * (1 - dc_still c).
Definition Long : Prop := (z_pause Z = true -> dT <= z_end Z /\ dT <= z_nom Z /\ z_end Z + z_nom Z + dT <= z_max Z) /\ dT <= (1 - dc_still c) * (E - b (2 * m)).

Local Arguments b : simpl never.
Local Arguments tm : simpl never.
Local Arguments fin : simpl never.
Local Arguments Nat.mul : simpl never.
Local Arguments Nat.add : simpl never.

Lemma b_step : forall j, (j < 2 * m + 1)%nat -> b j + dT <= b (S j).
Proof.
  intros j H. unfold b. specialize (Inc j H). apply le_INR in Inc. rewrite S_INR in Inc.
  replace (INR (nth j shift 0%nat) * dT + dT) with ((INR (nth j shift 0%nat) + 1) * dT) by ring. apply Rmult_le_compat_r; lra.
Qed.
Lemma b_lt : forall j, (j < 2 * m + 1)%nat -> b j < b (S j).
Proof. intros j H. pose proof (b_step j H). lra. Qed.
Lemma shift_b : forall j, (j < 2 * m + 2)%nat -> shift_at dT shift j = Ok (b j).
Proof.
  intros j H. unfold shift_at, b. destruct (nth_error shift j) eqn:E1; [|apply nth_error_None in E1; lia].
  rewrite (nth_error_nth _ _ 0%nat E1). reflexivity.
Qed.
Lemma step_z : forall k, (k < m + 2)%nat -> exists s, step_at ord k = Ok s /\ zmp_at c s = Ok (zs k).
Proof.
  intros k H. unfold step_at. destruct (nth_error ord k) eqn:E1; [|apply nth_error_None in E1; lia]. eexists. split; [reflexivity|]. eauto.
Qed.

Record Built (k : nat) (tr : list sub) : Prop := MkBuilt {
  B_head : exists s r, tr = SubS s :: r;
  B_len : length (supports tr) = (m - k)%nat;
  B_sup : forall j s, nth_error (supports tr) j = Some s ->
    ss_t0 s = b (2 * (k + j) + 1) /\ ss_t1 s = b (2 * (k + j) + 2) /\ ss_om s = dc_om c /\ ss_zmp s = zs (k + j + 1);
  B_next : forall j s s', nth_error (supports tr) j = Some s -> nth_error (supports tr) (S j) = Some s' ->
    ss_bt s = (ss_t0 s' + ss_t1 s) * dc_alpha c /\ ss_bp s = ss_pos s' (ss_bt s);
  B_last : forall s, nth_error (supports tr) (m - 1 - k) = Some s ->
    ss_bt s = b (2 * m) /\ ss_bp s = vadd (vscale (1 - dc_last c) (zs m)) (vscale (dc_last c) (zs (m + 1)));
  B_tiles : tiles (b (2 * k + 1)) E tr;
  B_fin : Forall finite (lasting tr);
  B_om : Forall (fun s => sub_om s = dc_om c) (lasting tr);
  B_chain : chain (lasting tr);
  B_end : exists pre d f, tr = pre ++ [d; f] /\ sub_t0 d = b (2 * m) /\ sub_t1 d = tm /\ sub_t0 f = tm /\ sub_t1 f = E
    /\ sub_pos d tm = Some fin /\ sub_vel d tm = Some vzero
    /\ (0 < dc_still c -> forall t, sub_pos f t = Some fin /\ sub_vel f t = Some vzero);
  B_pause : forall j, (k < j < m)%nat -> ds_pauses Z (b (2 * j + 1) - b (2 * j)) = true ->
    exists s, In s tr /\ sub_t0 s = b (2 * j) + z_end Z /\ sub_t1 s = b (2 * j + 1) - z_nom Z
    /\ forall t, sub_pos s t = Some (mid (zs j) (zs (j + 1))) /\ sub_vel s t = Some vzero;
  B_long : Long -> Forall (fun s => dT <= sub_t1 s - sub_t0 s) (removelast tr)
}.

Lemma tm_bounds : b (2 * m) < tm <= E.
Proof.
  unfold tm. pose proof (b_lt (2 * m) ltac:(lia)) as L. replace (S (2 * m)) with (2 * m + 1)%nat in L by lia. fold E in L.
  split; [|nra]. assert (0 < (E - b (2 * m)) * (1 - dc_still c)) by (apply Rmult_lt_0_compat; lra). lra.
Qed.

Lemma last_built : exists tr, 
  add_last c dT (b (2 * m - 1)) (b (2 * m)) E (zs m) (MkD (b (2 * m)) (vadd (vscale (1 - dc_last c) (zs m)) (vscale (dc_last c) (zs (m + 1)))) vzero) fin [] = Ok tr
  /\ Built (m - 1) tr.
Proof.
  pose proof (b_lt (2 * m - 1) ltac:(lia)) as L. replace (S (2 * m - 1)) with (2 * m)%nat in L by lia. pose proof tm_bounds as T.
  unfold add_last, mk_ss. rewrite (proj2 (asserted_true _ _ _)) by lra. cbn [rbind d_t d_p ss_t0 ss_t1].
  rewrite checked_in by lra. cbn [rbind]. fold tm.
  set (p := vadd _ _). set (s := MkSS _ _ _ _ _ _).
  destruct (mk_3_ok (MkD tm fin vzero) (MkD E fin vzero) (dc_om c)) as (f & Ef & F0 & F1); cbn [d_t] in *; [lra..|]. rewrite Ef. cbn [rbind].
  destruct (mk_3_ok (MkD (b (2 * m)) p (ss_vel s (b (2 * m)))) (MkD tm fin vzero) (dc_om c)) as (d & Ed & D0 & D1); cbn [d_t] in *; [lra..|]. rewrite Ed. cbn [rbind].
  eexists. split; [reflexivity|].
  destruct (mk_3_bounds _ _ _ _ Ed ltac:(cbn [d_t]; lra)) as (_ & _ & Od & Fd & P1 & V1 & P2 & V2). cbn [d_t d_p d_v] in *.
  assert (Es : ss_pos s (b (2 * m)) = p).
  { unfold ss_pos, s. cbn. rewrite Rminus_diag_eq, Rmult_0_r, exp_0 by auto. unfold p. apply vec2_ext; cbn; ring. }
  assert (Ns : supports [SubS s; d; f] = [s]).
  { change (supports [SubS s; d; f]) with (s :: supports [d; f]). rewrite !supports_cons_d; [reflexivity|..]; intros s'; eapply mk_3_not_ss; eauto. }
  assert (Ld : lasting [SubS s; d; f] = SubS s :: d :: lasting [f]) by (rewrite (lasting_cons (SubS s)) by (cbn; lra); rewrite (lasting_cons d) by lra; reflexivity).
  constructor; rewrite ?Ns, ?Ld.
  - do 2 eexists. reflexivity.
  - cbn. lia.
  - intros j s' H. destruct j; [|destruct j; discriminate]. injection H as <-. cbn. replace (m - 1 + 0)%nat with (m - 1)%nat by lia.
    replace (m - 1 + 1)%nat with m by lia.
    replace (2 * (m - 1) + 1)%nat with (2 * m - 1)%nat by lia. replace (2 * (m - 1) + 2)%nat with (2 * m)%nat by lia. auto.
  - intros j s1 s2 _ H. destruct j; discriminate.
  - intros s' H. replace (m - 1 - (m - 1))%nat with 0%nat in H by lia. injection H as <-. auto.
  - replace (2 * (m - 1) + 1)%nat with (2 * m - 1)%nat by lia. cbn [tiles]. cbn [sub_t0 sub_t1 s ss_t0 ss_t1]. rewrite D0, D1, F0, F1. lra.
  - constructor; [exact I|]. constructor; [exact Fd|]. unfold lasting. cbn [filter]. destruct (Rltb _ _) eqn:Q; [|constructor]. apply Rltb_true in Q. constructor; [|constructor].
    apply (mk_3_bounds _ _ _ _ Ef ltac:(cbn [d_t]; lra)).
  - constructor; [reflexivity|]. constructor; [exact Od|]. unfold lasting. cbn [filter]. destruct (Rltb _ _) eqn:Q; [|constructor]. apply Rltb_true in Q. constructor; [|constructor].
    apply (mk_3_bounds _ _ _ _ Ef ltac:(cbn [d_t]; lra)).
  - cbn [chain]. split.
    + split; [cbn; auto|]. exists p, (ss_vel s (b (2 * m))). rewrite D0. cbn [sub_t1 s ss_t1 sub_pos sub_vel]. fold s. rewrite Es. auto.
    + unfold lasting. cbn [filter]. destruct (Rltb _ _) eqn:Q; [|exact I]. split; [|exact I]. apply Rltb_true in Q.
      destruct (mk_3_bounds _ _ _ _ Ef ltac:(cbn [d_t]; lra)) as (_ & _ & _ & _ & P3 & V3 & _). cbn [d_t d_p d_v] in *.
      split; [lra|]. exists fin, vzero. rewrite D1, F0. auto.
  - exists [SubS s], d, f. do 7 (split; [solve [auto]|]). intros Hs. intros t.
    assert (tm < E). { unfold tm. pose proof (b_lt (2 * m) ltac:(lia)) as L'. replace (S (2 * m)) with (2 * m + 1)%nat in L' by lia. fold E in L'.
      assert (0 < (E - b (2 * m)) * dc_still c) by (apply Rmult_lt_0_compat; lra). lra. }
    eapply mk_3_rest; [exact Ef|]; auto.
  - intros j Hj. lia.
  - intros [_ HL]. cbn [removelast]. pose proof (b_step (2 * m - 1) ltac:(lia)) as L2. replace (S (2 * m - 1)) with (2 * m)%nat in L2 by lia.
    constructor; [cbn; lra|]. constructor; [|constructor]. rewrite D0, D1. unfold tm. lra.
Qed.

Lemma pauses_inv : forall T, ds_pauses Z T = true -> z_pause Z = true /\ z_max Z < T /\ z_end Z + z_nom Z < T.
Proof.
  intros T H. unfold ds_pauses, Rgtb in H. apply andb_true_iff in H. destruct H as [H1 H2]. apply Rltb_true in H2.
  pose proof (Rmax_l (z_max Z) (z_end Z + z_nom Z)). pose proof (Rmax_r (z_max Z) (z_end Z + z_nom Z)). repeat split; auto; lra.
Qed.

Lemma new_built : forall k tr nx r, (S k < m)%nat -> tr = SubS nx :: r -> Built (S k) tr ->
  let tb := (ss_t0 nx + b (2 * k + 2)) * dc_alpha c in
  exists tr', add_new c Z dT (b (2 * k + 1)) (b (2 * k + 2)) (zs (k + 1)) (MkD tb (ss_pos nx tb) vzero) tr = Ok tr' /\ Built k tr'.
Proof.
  intros k tr nx r Hk Etr B tb.
  pose proof (b_step (2 * k + 1) ltac:(lia)) as L1. replace (S (2 * k + 1)) with (2 * k + 2)%nat in L1 by lia.
  pose proof (b_step (2 * k + 2) ltac:(lia)) as L2. replace (S (2 * k + 2)) with (2 * k + 3)%nat in L2 by lia.
  destruct B as [_ BL BS BN BLa BT BF BO BC BE BP BG].
  destruct (BS 0%nat nx) as (N0 & N1 & N2 & N3). { rewrite Etr. reflexivity. }
  replace (2 * (S k + 0) + 1)%nat with (2 * k + 3)%nat in N0 by lia. replace (2 * (S k + 0) + 2)%nat with (2 * k + 4)%nat in N1 by lia. replace (S k + 0 + 1)%nat with (k + 2)%nat in N3 by lia.
  pose proof (b_step (2 * k + 3) ltac:(lia)) as L3. replace (S (2 * k + 3)) with (2 * k + 4)%nat in L3 by lia.
  unfold add_new, mk_ss. rewrite (proj2 (asserted_true _ _ _)) by lra. cbn [rbind d_t d_p].
  set (s := MkSS _ _ _ _ _ _). replace (next_ss tr) with (Ok nx) by (rewrite Etr; reflexivity). cbn [rbind]. cbn [ss_t0 ss_t1 s].
  rewrite !checked_in by lra. cbn [rbind]. fold s.
  set (p1 := ss_pos s (b (2 * k + 2))). set (v1 := ss_vel s (b (2 * k + 2))). set (p2 := ss_pos nx (ss_t0 nx)). set (v2 := ss_vel nx (ss_t0 nx)).
  assert (Tail : exists q, lasting tr = SubS nx :: q) by (eexists; rewrite Etr; apply lasting_cons; cbn; lra).
  destruct Tail as [q Tail].
  (* what does not depend on the double support *)
  assert (Main : forall xs, supports (xs ++ tr) = supports tr -> tiles (b (2 * k + 2)) (b (2 * k + 3)) xs ->
     Forall (fun s => sub_t0 s < sub_t1 s) xs -> Forall finite xs -> Forall (fun s => sub_om s = dc_om c) xs -> chain (SubS s :: xs ++ lasting tr) ->
     (ds_pauses Z (b (2 * k + 3) - b (2 * k + 2)) = true -> exists x, In x xs /\ sub_t0 x = b (2 * k + 2) + z_end Z /\ sub_t1 x = b (2 * k + 3) - z_nom Z
        /\ forall t, sub_pos x t = Some (mid (zs (k + 1)) (zs (k + 2))) /\ sub_vel x t = Some vzero) ->
     (Long -> Forall (fun s => dT <= sub_t1 s - sub_t0 s) xs) -> Built k (SubS s :: xs ++ tr)).
  { intros xs X1 X2 X3 X4 X5 X6 X7 X8.
    assert (Lx : lasting (xs ++ tr) = xs ++ lasting tr).
    { unfold lasting. rewrite filter_app. f_equal. clear -X3. induction X3 as [|x l Hx _ IH]; [reflexivity|]. cbn [filter]. rewrite (proj2 (Rltb_true _ _)) by auto. congruence. }
    assert (Sx : supports (SubS s :: xs ++ tr) = s :: supports tr) by (rewrite <- X1; reflexivity).
    constructor; rewrite ?Sx; try (rewrite lasting_cons by (cbn; lra)); rewrite ?Lx.
    - do 2 eexists. reflexivity.
    - cbn [length]. rewrite BL. lia.
    - intros [|j] s' H.
      + injection H as <-. replace (2 * (k + 0) + 1)%nat with (2 * k + 1)%nat by lia. replace (2 * (k + 0) + 2)%nat with (2 * k + 2)%nat by lia. replace (k + 0 + 1)%nat with (k + 1)%nat by lia. auto.
      + replace (k + S j)%nat with (S k + j)%nat by lia. apply BS. exact H.
    - intros [|j] s1 s2 H1 H2.
      + injection H1 as <-. cbn [nth_error] in H2. rewrite Etr in H2. injection H2 as <-. cbn. auto.
      + apply (BN j); auto.
    - intros s' H. replace (m - 1 - k)%nat with (S (m - 1 - S k)) in H by lia. apply BLa. exact H.
    - cbn [tiles]. split; [reflexivity|]. split; [cbn; lra|]. apply tiles_app. exists (b (2 * k + 3)). split; [exact X2|].
      replace (2 * k + 3)%nat with (2 * S k + 1)%nat by lia. exact BT.
    - constructor; [exact I|]. apply Forall_app. auto.
    - constructor; [reflexivity|]. apply Forall_app. auto.
    - exact X6.
    - destruct BE as (pre & d & f & Ep & BE). exists (SubS s :: xs ++ pre), d, f. split; [|exact BE]. rewrite Ep. cbn. rewrite app_assoc. reflexivity.
    - intros j Hj Hpa. destruct (Nat.eq_dec j (S k)) as [->|Hn].
      + replace (2 * S k + 1)%nat with (2 * k + 3)%nat in * by lia. replace (2 * S k)%nat with (2 * k + 2)%nat in * by lia.
        destruct (X7 Hpa) as (x & Hx & Q). exists x. split; [right; apply in_or_app; auto|].
        replace (S k) with (k + 1)%nat by lia. replace (k + 1 + 1)%nat with (k + 2)%nat by lia. exact Q.
      + destruct (BP j ltac:(lia) Hpa) as (x & Hx & Q). exists x. split; [right; apply in_or_app; auto|exact Q].
    - intros HL. rewrite removelast_cons by (destruct xs; [rewrite Etr; discriminate|discriminate]). constructor; [cbn; lra|].
      rewrite removelast_app by (rewrite Etr; discriminate). apply Forall_app. auto. }
  rewrite N0. destruct (ds_pauses Z (b (2 * k + 3) - b (2 * k + 2))) eqn:Pa.
  - destruct (pauses_inv _ Pa) as (Q1 & Q2 & Q3). destruct (Hp Q1) as [He Hn]. rewrite N3.
    set (ta := b (2 * k + 2) + z_end Z). set (tbb := b (2 * k + 3) - z_nom Z). set (mm := mid (zs (k + 1)) (zs (k + 2))).
    assert (Lta : b (2 * k + 2) < ta < tbb /\ tbb < b (2 * k + 3)) by (unfold ta, tbb; lra).
    destruct (mk_3_ok (MkD tbb mm vzero) (MkD (b (2 * k + 3)) p2 v2) (dc_om c)) as (x3 & E3 & A3 & A3'); cbn [d_t] in *; [lra..|].
    destruct (mk_3_ok (MkD ta mm vzero) (MkD tbb mm vzero) (dc_om c)) as (x2 & E2 & A2 & A2'); cbn [d_t] in *; [lra..|].
    destruct (mk_3_ok (MkD (b (2 * k + 2)) p1 v1) (MkD ta mm vzero) (dc_om c)) as (x1 & E1 & A1 & A1'); cbn [d_t] in *; [lra..|].
    rewrite E3. cbn [rbind]. rewrite E2. cbn [rbind]. rewrite E1. cbn [rbind]. eexists. split; [reflexivity|].
    destruct (mk_3_bounds _ _ _ _ E3 ltac:(cbn [d_t]; lra)) as (_ & _ & O3 & F3 & P3 & V3 & P3' & V3'). cbn [d_t d_p d_v] in *.
    destruct (mk_3_bounds _ _ _ _ E2 ltac:(cbn [d_t]; lra)) as (_ & _ & O2 & F2 & P2 & V2 & P2' & V2'). cbn [d_t d_p d_v] in *.
    destruct (mk_3_bounds _ _ _ _ E1 ltac:(cbn [d_t]; lra)) as (_ & _ & O1 & F1 & P1 & V1 & P1' & V1'). cbn [d_t d_p d_v] in *.
    apply (Main [x1; x2; x3]).
    + cbn [app]. rewrite !supports_cons_d; [reflexivity|..]; intros s'; eapply mk_3_not_ss; eauto.
    + cbn [tiles]. rewrite A1, A1', A2, A2', A3, A3'. lra.
    + repeat constructor; lra.
    + repeat constructor; auto.
    + repeat constructor; auto.
    + rewrite Tail. cbn [app chain]. unfold meets. rewrite A1, A1', A2, A2', A3, A3'. cbn [sub_t0 sub_t1 s ss_t1]. fold s. cbn [sub_pos sub_vel]. rewrite N0.
      split; [split; [auto|]; exists p1, v1; auto|]. split; [split; [auto|]; exists mm, vzero; auto|]. split; [split; [auto|]; exists mm, vzero; auto|].
      unfold p2, v2 in P3', V3'. rewrite N0 in P3', V3'.
      split; [split; [auto|]; do 2 eexists; eauto|]. rewrite Tail in BC. exact BC.
    + intros _. exists x2. split; [right; left; auto|]. split; auto. split; auto. intros t. eapply mk_3_rest; [exact E2|]. lra.
    + intros [HL _]. destruct (HL Q1) as (Z1 & Z2 & Z3). fa ltac:(rewrite ?A1, ?A1', ?A2, ?A2', ?A3, ?A3'; unfold ta, tbb; lra).
  - destruct (mk_3_ok (MkD (b (2 * k + 2)) p1 v1) (MkD (b (2 * k + 3)) p2 v2) (dc_om c)) as (x & Ex & A1 & A2); cbn [d_t] in *; [lra..|].
    rewrite Ex. cbn [rbind]. eexists. split; [reflexivity|].
    destruct (mk_3_bounds _ _ _ _ Ex ltac:(cbn [d_t]; lra)) as (_ & _ & O1 & F1 & P1 & V1 & P1' & V1'). cbn [d_t d_p d_v] in *.
    apply (Main [x]).
    + cbn [app]. rewrite !supports_cons_d; [reflexivity|..]; intros s'; eapply mk_3_not_ss; eauto.
    + cbn [tiles]. lra.
    + repeat constructor; lra.
    + repeat constructor; auto.
    + repeat constructor; auto.
    + rewrite Tail. cbn [app chain]. unfold meets. rewrite A1, A2. cbn [sub_t0 sub_t1 s ss_t1]. fold s. cbn [sub_pos sub_vel]. rewrite N0.
      split; [split; [auto|]; exists p1, v1; auto|]. unfold p2, v2 in P1', V1'. rewrite N0 in P1', V1'.
      split; [split; [auto|]; do 2 eexists; eauto|]. rewrite Tail in BC. exact BC.
    + discriminate.
    + intros _. fa ltac:(lra).
Qed.

Lemma loop_built : forall k tr, (k < m)%nat -> Built k tr -> exists tr', build_loop c Z dT ord shift (2 * k) k tr = Ok tr' /\ Built 0 tr'.
Proof.
  induction k as [|k IH]; intros tr Hk B; [exists tr; split; [reflexivity|exact B]|].
  replace (2 * S k)%nat with (S (S (2 * k))) by lia. cbn [build_loop].
  destruct (B_head _ _ B) as (nx & r & Etr).
  rewrite shift_b by lia. cbn [rbind]. rewrite shift_b by lia. cbn [rbind]. replace (next_ss tr) with (Ok nx) by (rewrite Etr; reflexivity). cbn [rbind].
  destruct (step_z (S k) ltac:(lia)) as (s & -> & Es). cbn [rbind]. rewrite Es. cbn [rbind]. unfold sub_size at 1. cbn [Nat.leb rbind].
  destruct (new_built k tr nx r Hk Etr B) as (tr' & E1 & B1).
  replace (S (S (2 * k))) with (2 * k + 2)%nat by lia. replace (S (2 * k)) with (2 * k + 1)%nat by lia. replace (S k) with (k + 1)%nat by lia.
  rewrite E1. cbn [rbind]. replace (k + 1 - 1)%nat with k by lia. apply IH; auto. lia.
Qed.

(** ** The whole construction *)
Variables p0 v0 : vec2.
Variable lph : list phase.
Hypothesis Hl : lph <> [].

(** The swing foot's ZMP used by a pausing first double support. *)
Definition first_swing : step -> Prop := fun s => exists o0 o1 l0 tl, nth_error ord 0 = Some o0 /\ nth_error ord 1 = Some o1 /\ lph = l0 :: tl
  /\ s = if String.eqb (st_name o0) (match l0 with SwitchIn => "right"%string | _ => "left"%string end) then o0 else o1.

Record Whole (tr : list sub) : Prop := MkWhole {
  W_len : length (supports tr) = m;
  W_sup : forall j s, nth_error (supports tr) j = Some s ->
    ss_t0 s = b (2 * j + 1) /\ ss_t1 s = b (2 * j + 2) /\ ss_om s = dc_om c /\ ss_zmp s = zs (j + 1);
  W_next : forall j s s', nth_error (supports tr) j = Some s -> nth_error (supports tr) (S j) = Some s' ->
    ss_bt s = (ss_t0 s' + ss_t1 s) * dc_alpha c /\ ss_bp s = ss_pos s' (ss_bt s);
  W_last : forall s, nth_error (supports tr) (m - 1) = Some s ->
    ss_bt s = b (2 * m) /\ ss_bp s = vadd (vscale (1 - dc_last c) (zs m)) (vscale (dc_last c) (zs (m + 1)));
  W_tiles : tiles 0 E tr;
  W_fin : Forall finite (lasting tr);
  W_om : Forall (fun s => sub_om s = dc_om c) (lasting tr);
  W_chain : chain (lasting tr);
  W_start : exists s r, tr = s :: r /\ sub_t0 s < sub_t1 s /\ sub_pos s 0 = Some p0 /\ sub_vel s 0 = Some v0;
  W_end : exists pre d f, tr = pre ++ [d; f] /\ sub_t0 d = b (2 * m) /\ sub_t1 d = tm /\ sub_t0 f = tm /\ sub_t1 f = E
    /\ sub_pos d tm = Some fin /\ sub_vel d tm = Some vzero
    /\ (0 < dc_still c -> forall t, sub_pos f t = Some fin /\ sub_vel f t = Some vzero);
  W_pause : forall j, (j < m)%nat -> ds_pauses Z (b (2 * j + 1) - b (2 * j)) = true ->
    exists s a, In s tr /\ sub_t0 s = b (2 * j) + z_end Z /\ sub_t1 s = b (2 * j + 1) - z_nom Z
    /\ (forall t, sub_pos s t = Some (mid a (zs (j + 1))) /\ sub_vel s t = Some vzero)
    /\ (j <> 0%nat -> a = zs j) /\ (j = 0%nat -> exists sw, first_swing sw /\ zmp_at c sw = Ok a);
  W_long : Long -> Forall (fun s => dT <= sub_t1 s - sub_t0 s) (removelast tr)
}.

Lemma mk_first_ok : forall a e, d_t a < d_t e -> exists s, mk_first c a e = Ok s /\ bounds s a e (dc_om c) /\ (forall s', s <> SubS s').
Proof.
  intros a e H. unfold mk_first. destruct (dc_five c).
  - assert (K : exists s, mk_5 a e vzero vzero (dc_om c) = Ok s) by (unfold mk_5; rewrite (proj2 (asserted_true _ _ _)) by lra; eexists; reflexivity).
    destruct K as [s K]. exists s. split; auto. split; [apply mk_5_bounds; auto|]. unfold mk_5 in K. destruct (asserted _ _ _); [|discriminate]. injection K as <-. discriminate.
  - destruct (mk_3_ok a e (dc_om c)) as (s & K & _); [lra..|]. exists s. split; auto. split; [apply mk_3_bounds; auto|]. intros s'. eapply mk_3_not_ss; eauto.
Qed.

Lemma first_built : forall tr sw, Built 0 tr -> first_swing sw -> (exists a, zmp_at c sw = Ok a) ->
  exists tr', add_first c Z dT (MkD 0 p0 v0) sw tr = Ok tr' /\ Whole tr'.
Proof.
  intros tr sw B Hsw (a & Ha). destruct B as [(nx & r & Etr) BL BS BN BLa BT BF BO BC BE BP BG].
  destruct (BS 0%nat nx) as (N0 & N1 & N2 & N3). { rewrite Etr. reflexivity. } change (2 * (0 + 0) + 1)%nat with 1%nat in N0. change (2 * (0 + 0) + 2)%nat with 2%nat in N1. change (0 + 0 + 1)%nat with 1%nat in N3.
  pose proof (b_step 1 ltac:(lia)) as L1. pose proof (b_step 0 ltac:(lia)) as L0.
  assert (B0 : b 0 = 0) by (unfold b; rewrite H0; cbn; ring). rewrite B0 in L0.
  unfold add_first. replace (next_ss tr) with (Ok nx) by (rewrite Etr; reflexivity). cbn [rbind]. rewrite !checked_in by lra. cbn [rbind d_t]. rewrite N0. rewrite Rminus_0_r.
  set (p2 := ss_pos nx (b 1)). set (v2 := ss_vel nx (b 1)).
  assert (Tail : exists q, lasting tr = SubS nx :: q) by (eexists; rewrite Etr; apply lasting_cons; cbn; lra). destruct Tail as [q Tail].
  assert (Main : forall xs x0 xs', xs = x0 :: xs' -> supports (xs ++ tr) = supports tr -> tiles 0 (b 1) xs ->
     Forall (fun s => sub_t0 s < sub_t1 s) xs -> Forall finite xs -> Forall (fun s => sub_om s = dc_om c) xs -> chain (xs ++ lasting tr) ->
     sub_pos x0 0 = Some p0 -> sub_vel x0 0 = Some v0 ->
     (ds_pauses Z (b 1) = true -> exists x, In x xs /\ sub_t0 x = z_end Z /\ sub_t1 x = b 1 - z_nom Z
        /\ forall t, sub_pos x t = Some (mid a (zs 1)) /\ sub_vel x t = Some vzero) ->
     (Long -> Forall (fun s => dT <= sub_t1 s - sub_t0 s) xs) -> Whole (xs ++ tr)).
  { intros xs x0 xs' Ex X1 X2 X3 X4 X5 X6 X7 X8 X9 X10.
    assert (Lx : lasting (xs ++ tr) = xs ++ lasting tr).
    { unfold lasting. rewrite filter_app. f_equal. clear -X3. induction X3 as [|x l Hx _ IH]; [reflexivity|]. cbn [filter]. rewrite (proj2 (Rltb_true _ _)) by auto. congruence. }
    constructor; rewrite ?X1, ?Lx.
    - rewrite BL. lia.
    - exact BS.
    - exact BN.
    - rewrite Nat.sub_0_r in BLa. exact BLa.
    - apply tiles_app. exists (b 1). split; auto.
    - apply Forall_app. auto.
    - apply Forall_app. auto.
    - exact X6.
    - exists x0, (xs' ++ tr). rewrite Ex. split; [reflexivity|]. rewrite Ex in X3. inversion X3; subst. auto.
    - destruct BE as (pre & d & f & Ep & BE). exists (xs ++ pre), d, f. split; [|exact BE]. rewrite Ep, app_assoc. reflexivity.
    - intros j Hj Hpa. destruct j as [|j].
      + change (2 * 0 + 1)%nat with 1%nat in *. change (2 * 0)%nat with 0%nat in *. change (0 + 1)%nat with 1%nat. rewrite B0 in Hpa. rewrite B0. rewrite Rminus_0_r in Hpa. destruct (X9 Hpa) as (x & Hx & Q1 & Q2 & Q3). exists x, a.
        split; [apply in_or_app; auto|]. split; [lra|]. split; [auto|]. split; [auto|]. split; [intros Q; contradiction Q; auto|]. intros _. exists sw. auto.
      + destruct (BP (S j) ltac:(lia) Hpa) as (x & Hx & Q1 & Q2 & Q3). exists x, (zs (S j)). split; [apply in_or_app; auto|]. repeat (split; [auto|]). intros; discriminate.
    - intros HL. rewrite removelast_app by (rewrite Etr; discriminate). apply Forall_app. auto. }
  destruct (ds_pauses Z (b 1)) eqn:Pa.
  - destruct (pauses_inv _ Pa) as (Q1 & Q2 & Q3). destruct (Hp Q1) as [He Hn]. rewrite Ha. cbn [rbind]. rewrite N3. rewrite Rplus_0_l.
    set (tbb := b 1 - z_nom Z). set (mm := mid a (zs 1)).
    assert (Lta : 0 < z_end Z < tbb /\ tbb < b 1) by (unfold tbb; lra).
    destruct (mk_3_ok (MkD tbb mm vzero) (MkD (b 1) p2 v2) (dc_om c)) as (x3 & E3 & A3 & A3'); cbn [d_t] in *; [lra..|].
    destruct (mk_3_ok (MkD (z_end Z) mm vzero) (MkD tbb mm vzero) (dc_om c)) as (x2 & E2 & A2 & A2'); cbn [d_t] in *; [lra..|].
    destruct (mk_first_ok (MkD 0 p0 v0) (MkD (z_end Z) mm vzero)) as (x1 & E1 & (A1 & A1' & O1 & F1 & P1 & V1 & P1' & V1') & N); cbn [d_t d_p d_v] in *; [lra|].
    rewrite E3. cbn [rbind]. rewrite E2. cbn [rbind]. rewrite E1. cbn [rbind]. eexists. split; [reflexivity|].
    destruct (mk_3_bounds _ _ _ _ E3 ltac:(cbn [d_t]; lra)) as (_ & _ & O3 & F3 & P3 & V3 & P3' & V3'). cbn [d_t d_p d_v] in *.
    destruct (mk_3_bounds _ _ _ _ E2 ltac:(cbn [d_t]; lra)) as (_ & _ & O2 & F2 & P2 & V2 & P2' & V2'). cbn [d_t d_p d_v] in *.
    apply (Main [x1; x2; x3] x1 [x2; x3] eq_refl); auto.
    + cbn [app]. rewrite !supports_cons_d; [reflexivity|..]; auto; intros s'; eapply mk_3_not_ss; eauto.
    + cbn [tiles]. rewrite A1, A1', A2, A2', A3, A3'. lra.
    + repeat constructor; lra.
    + rewrite Tail. cbn [app chain]. unfold meets. rewrite A1', A2, A2', A3, A3'. cbn [sub_t0]. cbn [sub_pos sub_vel]. rewrite N0.
      split; [split; [auto|]; exists mm, vzero; auto|]. split; [split; [auto|]; exists mm, vzero; auto|].
      split; [split; [auto|]; exists p2, v2; auto|]. rewrite Tail in BC. exact BC.
    + intros _. exists x2. split; [right; left; auto|]. split; auto. split; auto. intros t. eapply mk_3_rest; [exact E2|]. lra.
    + intros [HL _]. destruct (HL Q1) as (Z1 & Z2 & Z3). fa ltac:(rewrite ?A1, ?A1', ?A2, ?A2', ?A3, ?A3'; unfold tbb; lra).
  - destruct (mk_first_ok (MkD 0 p0 v0) (MkD (b 1) p2 v2)) as (x1 & E1 & (A1 & A1' & O1 & F1 & P1 & V1 & P1' & V1') & N); cbn [d_t d_p d_v] in *; [lra|].
    rewrite E1. cbn [rbind]. eexists. split; [reflexivity|].
    apply (Main [x1] x1 [] eq_refl); auto.
    + cbn [app]. rewrite !supports_cons_d; auto.
    + cbn [tiles]. lra.
    + repeat constructor; lra.
    + rewrite Tail. cbn [app chain]. unfold meets. rewrite A1'. cbn [sub_t0]. cbn [sub_pos sub_vel]. rewrite N0.
      split; [split; [auto|]; exists p2, v2; auto|]. rewrite Tail in BC. exact BC.
    + discriminate.
    + intros _. fa ltac:(lra).
Qed.

Lemma build_walk : exists tr, build c Z dT ord shift lph p0 v0 = Ok tr /\ Whole tr.
Proof.
  unfold build. rewrite Lo. destruct (Nat.ltb_spec (m + 2) 2); [lia|]. destruct (Nat.ltb_spec 2 (m + 2)); [|lia].
  assert (K : forall n k, (k = n + 1)%nat -> sub_size k 1 = Ok n) by (intros n k ->; unfold sub_size; destruct (Nat.leb_spec 1 (n + 1)); [f_equal; lia|lia]).
  rewrite Ls. rewrite (K (2 * m + 1)%nat (2 * m + 2)%nat) by lia. cbn [rbind]. rewrite (K (m + 1)%nat (m + 2)%nat) by lia. cbn [rbind].
  rewrite (shift_b (2 * m + 1)) by lia. cbn [rbind]. rewrite (K (2 * m)%nat (2 * m + 1)%nat) by lia. cbn [rbind]. rewrite (shift_b (2 * m)) by lia. cbn [rbind].
  rewrite (K (2 * m - 1)%nat (2 * m)%nat) by lia. cbn [rbind]. rewrite (shift_b (2 * m - 1)) by lia. cbn [rbind].
  rewrite (K (2 * (m - 1))%nat (2 * m - 1)%nat) by lia. cbn [rbind].
  destruct (step_z (m + 1) ltac:(lia)) as (s1 & -> & Es1). cbn [rbind]. rewrite Es1. cbn [rbind]. rewrite (K m (m + 1)%nat) by lia. cbn [rbind].
  destruct (step_z m ltac:(lia)) as (s2 & -> & Es2). cbn [rbind]. rewrite Es2. cbn [rbind].
  rewrite (K (m - 1)%nat m) by lia. cbn [rbind]. fold E fin.
  destruct last_built as (tr & Et & Bt). rewrite Et. cbn [rbind].
  destruct (loop_built (m - 1) tr ltac:(lia) Bt) as (tr' & Et' & Bt'). rewrite Et'. cbn [rbind].
  destruct (step_z 0 ltac:(lia)) as (o0 & E0 & Z0). destruct (step_z 1 ltac:(lia)) as (o1 & E1 & Z1). rewrite E0, E1. cbn [rbind].
  destruct lph as [|l0 tl] eqn:El; [contradiction|].
  assert (N : forall k s, step_at ord k = Ok s -> nth_error ord k = Some s) by (intros k s; unfold step_at; destruct (nth_error ord k); congruence).
  apply first_built; auto.
  - exists o0, o1, l0, tl. rewrite El. auto.
  - destruct (String.eqb _ _); eauto.
Qed.
End Building.
