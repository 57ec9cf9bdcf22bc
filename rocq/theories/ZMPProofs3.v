(** Lemmas about the ZMP trajectories: whole walks. *)
From Coq Require Import String Reals Lra Lia ZArith List Bool Sorting.Sorted Sorting.Permutation.
From Flocq Require Import Core.Raux.
From Verif Require Import Prelude EvalTac Rounding FootPrint GenPhases GenSpec GenProofs GenProofs2 GenProofs3 FeetTraj FeetSpec FeetProofs
  FeetProofs2 CoMHeightSpec CoMHeightProofs ZMP ZMPSpec ZMPProofs ZMPProofs2.
Import ListNotations.
Open Scope R_scope.

Section Pieces.
Variable spl : R -> R -> R -> R -> R -> R -> pva.
Variable Z : ztimes.
Variable dT : R.
Hypothesis HdT : 0 < dT.
Hypothesis Hend : 0 < z_end Z.
Hypothesis Hnom : 0 < z_nom Z.

Lemma no_pause_0 : pauses Z dT 0 = false.
Proof.
  unfold pauses. rewrite rgtb_f; [apply andb_false_r|]. cbn [INR]. pose proof (Rmax_r (z_max Z) (z_end Z + z_nom Z)). lra.
Qed.
Lemma spline_pts_0 : forall x0 x1 n, spline_pts spl dT 0 x0 x1 n = Fail.
Proof. intros. unfold spline_pts. rewrite reqb_t by lra. reflexivity. Qed.

(** An empty phase yields nothing or makes the computation fail. *)
Lemma local_piece_empty : forall zs zw first last p a,
  local_piece spl Z dT zs zw first last p a a = Ok [] \/ local_piece spl Z dT zs zw first last p a a = Fail.
Proof.
  intros zs zw first last p a. destruct p; cbn [local_piece]; rewrite ?Nat.sub_diag; auto.
  - rewrite sub_size_le by lia. cbn [rbind]. rewrite Nat.sub_diag. cbn [INR]. rewrite Rmult_0_l, spline_pts_0. auto.
  - destruct first; auto. rewrite sub_size_le by lia. cbn [rbind]. rewrite Nat.sub_diag, no_pause_0.
    assert (E : (if last then INR 0 * dT else INR 0 * dT / 2) = 0) by (destruct last; cbn [INR]; lra). rewrite E.
    replace (0 / dT) with 0 by (unfold Rdiv; ring). unfold size_ceil. rewrite Zceil_IZR. cbn [to_size rbind Z.ltb Z.compare]. rewrite spline_pts_0. auto.
Qed.
Lemma local_piece_len : forall zs zw first last p a b o, (a <= b)%nat -> local_piece spl Z dT zs zw first last p a b = Ok o -> length o = (b - a)%nat.
Proof.
  intros zs zw first last p a b o Hab H. destruct (Nat.eq_dec a b) as [->|N].
  - destruct (local_piece_empty zs zw first last p b) as [E|E]; rewrite E in H; [|discriminate]. injection H as <-. cbn. lia.
  - rewrite local_piece_ok in H by (auto; lia). injection H as <-. rewrite map_length, seq_length. reflexivity.
Qed.
Lemma weight_piece_empty : forall ph w0 first last p a, nth_error ph a <> None ->
  weight_piece spl Z dT ph w0 first last p a a = Ok [] \/ weight_piece spl Z dT ph w0 first last p a a = Fail.
Proof.
  intros ph w0 first last p a Ha.
  assert (G : weight_piece spl Z dT ph w0 first last SwitchIn a a = Fail /\ weight_piece spl Z dT ph w0 first last SwitchOut a a = Fail).
  { split; cbn [weight_piece]; rewrite sub_size_le by lia; cbn [rbind]; rewrite Nat.sub_diag, no_pause_0; cbn [rbind length];
      rewrite Nat.add_0_r; (destruct last; [|destruct (nth_error ph a) as [q|]; [destruct q|congruence]]; cbn [rbind]);
      cbn [rbind sub_size Nat.sub Nat.leb Nat.ltb INR]; rewrite Rmult_0_l, spline_pts_0; reflexivity. }
  destruct p; try tauto; cbn [weight_piece]; rewrite Nat.sub_diag; auto.
Qed.

Lemma weight_piece_def : forall ph w0 first last p a b, (a < b)%nat -> seg ph a b p -> (last = true \/ (b < length ph)%nat) ->
  weight_piece spl Z dT ph w0 first last p a b <> UB.
Proof.
  intros ph w0 first last p a b Hab Hs Hb. destruct (pauses Z dT (b - a)) eqn:Ep.
  2:{ rewrite weight_piece_ok by (auto; rewrite Ep; discriminate). discriminate. }
  destruct (Nat.eq_dec (n2 Z dT) 0) as [E|E]; [|rewrite weight_piece_ok by (auto; lia); discriminate].
  assert (Q : p = SwitchIn \/ p = SwitchOut -> weight_piece spl Z dT ph w0 first last p a b <> UB).
  { intros Q. destruct (pause_room Z dT HdT Hend Hnom _ Ep) as [R1 _]. unfold n2 in E.
    assert (L : forall x (pre : list pva), length pre = n1 Z dT -> length (pre ++ repeat x (b - a - nround (z_nom Z / dT) - length pre)) = (b - a)%nat).
    { intros x pre Lp. rewrite app_length, repeat_length, Lp, E. lia. }
    assert (N0 : last = false -> nth_error ph b <> None) by (intros ->; apply nth_error_Some; destruct Hb; [discriminate|auto]).
    destruct Q as [-> | ->]; cbn [weight_piece]; rewrite sub_size_le by lia; cbn [rbind]; rewrite Ep, spline_pts_ok by auto; cbn [rbind];
      rewrite L by (rewrite map_length, seq_length; reflexivity); replace (a + (b - a))%nat with b by lia;
      (destruct last; [|destruct (nth_error ph b) as [q|]; [destruct q|exfalso; apply N0; reflexivity]]); cbn [rbind];
      rewrite sub_size_le by lia; cbn [rbind]; rewrite Nat.sub_diag; cbn [INR]; rewrite Rmult_0_l, spline_pts_0; discriminate. }
  destruct p; auto; cbn [weight_piece].
  - rewrite (collect_ok _ _ _ (fun _ => still 1)); [discriminate|]. intros i Hi. apply in_seq in Hi. rewrite (Hs i) by lia. reflexivity.
  - rewrite (collect_ok _ _ _ (fun _ => still 0)); [discriminate|]. intros i Hi. apply in_seq in Hi. rewrite (Hs i) by lia. reflexivity.
Qed.

(** A run never leaves the buffers. *)
Lemma phase_loop_defined : forall (A : Type) (piece : bool -> bool -> phase -> nat -> nat -> res (list A)) ph B n,
  (forall i j, (i <= j <= n)%nat -> (B i <= B j)%nat) -> length ph = B n -> (forall j, (j < n)%nat -> (B j < B n)%nat) ->
  (forall j f p, (j < n)%nat -> nth_error ph (B j) = Some p -> ((B j < B (S j))%nat -> seg ph (B j) (B (S j)) p) ->
     let l := Nat.eqb (S j) n in
     piece f l p (B j) (B (S j)) <> UB /\ forall o, piece f l p (B j) (B (S j)) = Ok o -> length o = (B (S j) - B j)%nat) ->
  (forall j p, (j < n)%nat -> nth_error ph (B j) = Some p -> (B j < B (S j))%nat -> seg ph (B j) (B (S j)) p) ->
  forall m k f, (k + m = n)%nat -> phase_loop piece ph (map B (seq (S k) m)) f (B k) <> UB.
Proof.
  intros A piece ph B n Hm Hl Hlt Hp Hs. induction m as [|m IH]; intros k f Hk; cbn [seq map phase_loop]; [discriminate|].
  pose proof (Hlt k ltac:(lia)). destruct (nth_error ph (B k)) as [p|] eqn:Ep; [|apply nth_error_None in Ep; lia].
  replace (match map B (seq (S (S k)) m) with [] => true | _ => false end) with (Nat.eqb (S k) n).
  2:{ destruct m; cbn [seq map]; [apply Nat.eqb_eq; lia|apply Nat.eqb_neq; lia]. }
  destruct (Hp k f p ltac:(lia) Ep (Hs k p ltac:(lia) Ep)) as [N L]. destruct (piece f (Nat.eqb (S k) n) p (B k) (B (S k))) as [o| |] eqn:Eo; cbn [rbind]; try congruence; try discriminate.
  pose proof (Hm k (S k) ltac:(lia)). pose proof (Hm (S k) n ltac:(lia)). rewrite (L o eq_refl). replace (B k + (B (S k) - B k))%nat with (B (S k)) by lia.
  destruct (Nat.ltb_spec (length ph) (B (S k))); [lia|]. pose proof (IH (S k) false ltac:(lia)). destruct (phase_loop _ _ _ _ _); cbn [rbind]; congruence.
Qed.
End Pieces.

(** ** Inversion of a whole run *)
Section Walk.
Variable spl : R -> R -> R -> R -> R -> R -> pva.
Variable g : gset.
Hypothesis G : good_settings g.
Variables dT init fl fr : R.
Hypothesis HdT : 0 < dT.
Variable pl : list tstep.
Variable ph : phases.
Hypothesis P : PhOk g dT init fl fr pl ph.
Let Z := ztimes_of g.
Let N := (2 * length pl + 1)%nat.

Lemma Zend : 0 < z_end Z.
Proof. destruct G. exact good_end. Qed.
Lemma Znom : 0 < z_nom Z.
Proof. destruct G. unfold Z, ztimes_of. cbn [z_nom]. apply Rmult_lt_0_compat; lra. Qed.

Lemma shift_ends : tl (ph_shift ph) = map (bnd ph) (seq 1 N).
Proof.
  destruct P. rewrite (shift_map (ph_shift ph)), p_len. unfold N. replace (2 * length pl + 2)%nat with (S (2 * length pl + 1)) by lia. reflexivity.
Qed.

Lemma foot_seg : forall b j p, (j < N)%nat -> nth_error (foot_phases ph b) (bnd ph j) = Some p -> (bnd ph j < bnd ph (S j))%nat ->
  seg (foot_phases ph b) (bnd ph j) (bnd ph (S j)) p.
Proof.
  intros b j p Hj Ep Hlt. destruct (interval_phase _ _ _ _ _ _ _ j P Hj) as (q & r & _ & Q1 & Q2).
  destruct b; cbn [foot_phases] in *; [rewrite (Q1 (bnd ph j)) in Ep by lia|rewrite (Q2 (bnd ph j)) in Ep by lia]; injection Ep as <-; auto.
Qed.

Lemma weight_inv : forall b w0 out, foot_weight spl Z dT (foot_phases ph b) w0 (ph_shift ph) = Ok out ->
  length out = bnd ph N /\ forall j, (j < N)%nat -> (bnd ph j < bnd ph (S j))%nat -> exists p, let n := (bnd ph (S j) - bnd ph j)%nat in
    seg (foot_phases ph b) (bnd ph j) (bnd ph (S j)) p
    /\ (pauses Z dT n = true -> p = SwitchIn \/ p = SwitchOut -> (1 <= n2 Z dT)%nat)
    /\ forall i, (bnd ph j <= i < bnd ph (S j))%nat ->
       nth_error out i = Some (wval spl Z dT w0 (Nat.eqb j 0) (Nat.eqb (S j) N) p n (i - bnd ph j)).
Proof.
  intros b w0 out H. unfold foot_weight in H. rewrite shift_ends in H. pose proof P as P0. destruct P0.
  pose proof (phase_loop_inv pva (weight_piece spl Z dT (foot_phases ph b) w0) (foot_phases ph b) (bnd ph) N) as I.
  assert (M : forall j p, (j < N)%nat -> nth_error (foot_phases ph b) (bnd ph j) = Some p -> seg (foot_phases ph b) (bnd ph j) (bnd ph (S j)) p).
  { intros j p Hj Ep. destruct (Nat.lt_ge_cases (bnd ph j) (bnd ph (S j))); [apply foot_seg; auto|]. intros i Hi. lia. }
  assert (Hl : forall j p o, (j < N)%nat -> nth_error (foot_phases ph b) (bnd ph j) = Some p ->
    weight_piece spl Z dT (foot_phases ph b) w0 (Nat.eqb j 0) (Nat.eqb (S j) N) p (bnd ph j) (bnd ph (S j)) = Ok o -> length o = (bnd ph (S j) - bnd ph j)%nat).
  { intros j p o Hj Ep Ho. pose proof (p_mono j (S j) ltac:(unfold N in *; lia)).
    destruct (weight_piece_inv spl Z dT HdT Zend Znom (foot_phases ph b) w0 (Nat.eqb j 0) (Nat.eqb (S j) N) p (bnd ph j) (bnd ph (S j)) o) as [L _]; auto. }
  specialize (I ltac:(intros; apply p_mono; unfold N in *; lia) Hl N 0%nat out ltac:(lia)). rewrite p_hd in I. destruct (I H) as [L K]. clear I.
  split; [lia|]. intros j Hj Hlt. destruct (K j ltac:(lia)) as (p & o & K1 & K2 & K3). exists p. cbv zeta.
  split; [auto|]. destruct (weight_piece_val spl Z dT HdT Zend Znom (foot_phases ph b) w0 (Nat.eqb j 0) (Nat.eqb (S j) N) p (bnd ph j) (bnd ph (S j)) o Hlt (M j p Hj K1) K2) as [V1 ->].
  split; [exact V1|]. intros i Hi. specialize (K3 i Hi). rewrite Nat.sub_0_r in K3. rewrite K3.
  rewrite nth_error_map. rewrite nth_error_nth' with (d := 0%nat) by (rewrite seq_length; lia). rewrite seq_nth by lia. reflexivity.
Qed.

Lemma local_inv : forall b zs zw out, local_zmp spl Z dT (foot_phases ph b) zs zw (ph_shift ph) = Ok out ->
  length out = bnd ph N /\ forall j p, (j < N)%nat -> seg (foot_phases ph b) (bnd ph j) (bnd ph (S j)) p -> 
    forall i, (bnd ph j <= i < bnd ph (S j))%nat ->
       nth_error out i = Some (lval spl Z dT zs zw (Nat.eqb j 0) (Nat.eqb (S j) N) p (bnd ph (S j) - bnd ph j) (i - bnd ph j)).
Proof.
  intros b zs zw out H. unfold local_zmp in H. rewrite shift_ends in H. pose proof P as P0. destruct P0.
  pose proof (phase_loop_inv pva2 (local_piece spl Z dT zs zw) (foot_phases ph b) (bnd ph) N) as I.
  assert (Hl : forall j p o, (j < N)%nat -> nth_error (foot_phases ph b) (bnd ph j) = Some p ->
    local_piece spl Z dT zs zw (Nat.eqb j 0) (Nat.eqb (S j) N) p (bnd ph j) (bnd ph (S j)) = Ok o -> length o = (bnd ph (S j) - bnd ph j)%nat).
  { intros j p o Hj Ep Ho. pose proof (p_mono j (S j) ltac:(unfold N in *; lia)).
    eapply local_piece_len; eauto using Zend, Znom. }
  specialize (I ltac:(intros; apply p_mono; unfold N in *; lia) Hl N 0%nat out ltac:(lia)). rewrite p_hd in I. destruct (I H) as [L K]. clear I.
  split; [lia|]. intros j p Hj Hs i Hi. destruct (K j ltac:(lia)) as (q & o & K1 & K2 & K3).
  assert (q = p). { specialize (Hs (bnd ph j) ltac:(lia)). congruence. } subst q.
  specialize (K3 i Hi). rewrite Nat.sub_0_r in K3. rewrite K3. rewrite local_piece_ok in K2 by (auto using Zend, Znom; lia). injection K2 as <-.
  rewrite nth_error_map. rewrite nth_error_nth' with (d := 0%nat) by (rewrite seq_length; lia). rewrite seq_nth by lia. reflexivity.
Qed.

(** No access outside the buffers, with or without empty phases. *)
Lemma walk_defined : (1 <= nround (g_endSwitch g / dT))%nat -> forall b w0 zs zw,
  foot_weight spl Z dT (foot_phases ph b) w0 (ph_shift ph) <> UB /\ local_zmp spl Z dT (foot_phases ph b) zs zw (ph_shift ph) <> UB.
Proof.
  intros He b w0 zs zw. unfold foot_weight, local_zmp. rewrite shift_ends. pose proof P as P0. destruct P0.
  assert (Lt : forall j, (j < N)%nat -> (bnd ph j < bnd ph N)%nat).
  { intros j Hj. pose proof (p_mono j (2 * length pl)%nat ltac:(unfold N in *; lia)). unfold N in *. lia. }
  assert (Mono : forall i j, (i <= j <= N)%nat -> (bnd ph i <= bnd ph j)%nat) by (intros; apply p_mono; unfold N in *; lia).
  pose proof Zend as Z1. pose proof Znom as Z2.
  split; match goal with |- phase_loop ?pc ?q ?e true 0 <> UB => change (phase_loop pc q e true 0) with (phase_loop pc q e true 0%nat); replace (phase_loop pc q e true 0) with (phase_loop pc q e true (bnd ph 0)) by (rewrite p_hd; reflexivity) end;
    apply (phase_loop_defined _ _ (foot_phases ph b) (bnd ph) N); auto; try (apply p_size); try lia; try (intros; apply foot_seg; auto).
  - intros j f p Hj Ep Hs l. pose proof (Mono j (S j) ltac:(lia)) as M1. destruct (Nat.eq_dec (bnd ph j) (bnd ph (S j))) as [E|E].
    + rewrite <- E. destruct (weight_piece_empty spl Z dT Z1 Z2 (foot_phases ph b) w0 f l p (bnd ph j)) as [Q|Q]; [congruence| |]; rewrite Q; (split; [discriminate|]).
      * intros o Ho. injection Ho as <-. cbn. lia.
      * discriminate.
    + assert (Hlt : (bnd ph j < bnd ph (S j))%nat) by lia. specialize (Hs Hlt). split.
      * apply weight_piece_def; auto. unfold l. destruct (Nat.eqb_spec (S j) N); [left; auto|right]. rewrite p_size. apply Lt. lia.
      * intros o Ho. destruct (weight_piece_inv spl Z dT HdT Z1 Z2 (foot_phases ph b) w0 f l p (bnd ph j) (bnd ph (S j)) o) as [L _]; auto.
  - intros j f p Hj Ep Hs l. pose proof (Mono j (S j) ltac:(lia)) as M1. destruct (Nat.eq_dec (bnd ph j) (bnd ph (S j))) as [E|E].
    + rewrite <- E. destruct (local_piece_empty spl Z dT Z1 Z2 zs zw f l p (bnd ph j)) as [Q|Q]; rewrite Q; (split; [discriminate|]).
      * intros o Ho. injection Ho as <-. cbn. lia.
      * discriminate.
    + rewrite local_piece_ok by (auto; lia). split; [discriminate|]. intros o Ho. injection Ho as <-. rewrite map_length, seq_length. reflexivity.
Qed.
End Walk.
