(** Lemmas about the ZMP trajectories: from accepted foot prints to the outputs. *)
From Coq Require Import String Reals Lra Lia ZArith List Bool Sorting.Sorted Sorting.Permutation.
From Verif Require Import Prelude EvalTac Rounding FootPrint GenPhases GenSpec GenProofs GenProofs2 GenProofs3 FeetTraj FeetSpec FeetProofs
  FeetProofs2 CoMHeightSpec CoMHeightProofs ZMP ZMPSpec ZMPProofs ZMPProofs2 ZMPProofs3.
Import ListNotations.
Open Scope R_scope.

Lemma merge_nonempty : forall g left right init dT srt out, generate_phases g left right init dT srt = Ok out -> ph_merge (go_ph out) <> [].
Proof.
  intros g left right init dT srt out H. unfold generate_phases in H.
  destruct (Nat.ltb _ 1); [discriminate|]. destruct (Nat.ltb _ 1); [discriminate|]. destruct (String.eqb _ _); [discriminate|]. destruct (Rleb _ _); [discriminate|].
  destruct (fp_steps left) as [|l0 l]; [discriminate|]. destruct (fp_steps right) as [|r0 r]; [discriminate|]. destruct (Rltb _ _); [discriminate|].
  apply rbind_ok in H. destruct H as (ord & _ & H). apply rbind_ok in H. destruct H as (ph & Hp & H). injection H as <-. cbn [go_ph].
  destruct ord as [|a [|b [|c tl]]]; cbn [create_phases] in Hp; try discriminate.
  - apply rbind_ok in Hp. destruct Hp as (es & _ & Hp). injection Hp as <-. cbn. discriminate.
  - apply rbind_ok in Hp. destruct Hp as (? & _ & Hp). apply rbind_ok in Hp. destruct Hp as (s & _ & Hp). apply rbind_ok in Hp. destruct Hp as (es & _ & Hp).
    apply rbind_ok in Hp. destruct Hp as (ml & _ & Hp). injection Hp as <-. cbn [ph_merge]. intros C. apply app_eq_nil in C. destruct C. discriminate.
Qed.

(** ** The steps found *)
Lemma sorted_pair : forall (A : Type) (rel : A -> A -> Prop) l, (forall a, rel a a) -> StronglySorted rel l ->
  forall i j a b, (i <= j)%nat -> nth_error l i = Some a -> nth_error l j = Some b -> rel a b.
Proof.
  intros A rel l Hr Hs. induction Hs as [|h t Hs IH Hf]; intros i j a b Hij E1 E2; [destruct i; discriminate|].
  destruct i as [|i]; destruct j as [|j]; try lia; cbn in E1, E2.
  - injection E1 as <-. injection E2 as <-. apply Hr.
  - injection E1 as <-. rewrite Forall_forall in Hf. apply Hf. eapply nth_error_In; eauto.
  - apply (IH i j); auto; lia.
Qed.
Definition foot_of (left right : footprint) (b : bool) : footprint := if b then left else right.
Lemma steps_in : forall l r ord s, enumerates l r ord -> (In s (map t_step ord) <-> exists b, In s (foot_list l r b)).
Proof.
  intros l r ord s [_ E]. rewrite in_map_iff. split.
  - intros ([b i x] & <- & H). cbn. exists b. apply E in H. eapply nth_error_In; eauto.
  - intros (b & H). apply In_nth_error in H. destruct H as (i & H). apply E in H. exists (MkT b i s). auto.
Qed.
Lemma found_latest : forall left right ord b t i s, named left -> named right -> fp_name left <> fp_name right ->
  enumerates (fp_steps left) (fp_steps right) ord -> StronglySorted tle ord ->
  top_index (map t_step ord) (fp_name (foot_of left right b)) (Some t) i -> nth_error (map t_step ord) i = Some s ->
  latest (fp_steps (foot_of left right b)) t s.
Proof.
  intros left right ord b t i s NL NR Hn He Hs [(x & Ex & Nx & Tx) Hi] Es. assert (x = s) by congruence. subst x. cbv beta in Tx.
  assert (FL : forall c, foot_list (fp_steps left) (fp_steps right) c = fp_steps (foot_of left right c)) by (intros [|]; reflexivity).
  assert (Nm : forall c y, In y (fp_steps (foot_of left right c)) -> st_name y = fp_name (foot_of left right c)) by (intros [|]; cbn; auto).
  split; [|split; [exact Tx|]].
  - apply nth_error_In in Es. apply (steps_in _ _ _ _ He) in Es. destruct Es as (c & Hc). rewrite FL in Hc.
    destruct (Bool.bool_dec c b) as [->|Ne]; auto. exfalso. apply Nm in Hc. rewrite Hc in Nx. destruct c, b; cbn in Nx; congruence.
  - intros y Hy Ty. assert (In y (map t_step ord)) by (apply (steps_in _ _ _ _ He); exists b; rewrite FL; auto).
    apply In_nth_error in H. destruct H as (j & Ej). pose proof (Hi j y Ej (conj (Nm b y Hy) Ty)) as Hj.
    rewrite nth_error_map in Es, Ej. destruct (nth_error ord i) as [ti|] eqn:E1; [|discriminate]. destruct (nth_error ord j) as [tj|] eqn:E2; [|discriminate].
    injection Es as <-. injection Ej as <-. apply (sorted_pair _ tle ord ltac:(unfold tle; intros; lra) Hs j i tj ti Hj E2 E1).
Qed.

(** ** A successful run taken apart *)
Definition old_steps (c : zcfg) (left right : footprint) (oldL oldR : step) : Prop :=
  match z_prev c with
  | Some o => (oldL, oldR) = o
  | None => hd_error (fp_steps left) = Some oldL /\ hd_error (fp_steps right) = Some oldR
  end.
Definition init_weight (c : zcfg) : pva := match z_init c with Some w => w | None => still (1 / 2) end.
Lemma zmp_parts : forall spl c Z init dT left right S P zo c', zmp_compute spl c Z init dT left right S P = Ok (zo, c') ->
  exists oldL oldR s1, old_steps c left right oldL oldR
  /\ foot_weight spl Z dT (ph_left P) (init_weight c) (ph_shift P) = Ok (zo_wl zo)
  /\ zo_wr zo = map mirror (zo_wl zo)
  /\ local_zmp spl Z dT (ph_left P) (z_stL c) (z_swL c) (ph_shift P) = Ok (zo_zl zo)
  /\ local_zmp spl Z dT (ph_right P) (z_stR c) (z_swR c) (ph_shift P) = Ok (zo_zr zo)
  /\ init_states (ph_merge P) (zo_wl zo) = Ok (zo_states zo)
  /\ nth_error (ph_shift P) 1 = Some s1
  /\ global_zmp spl init dT s1 oldL oldR S (fp_name left) (fp_name right) (zo_wl zo) (zo_wr zo) (zo_zl zo) (zo_zr zo) = Ok (zo_world zo)
  /\ c' = MkZ (z_stL c) (z_stR c) (z_swL c) (z_swR c) None None.
Proof.
  intros spl c Z init dT left right S P zo c' H. unfold zmp_compute in H. fold (init_weight c) in H. unfold old_steps.
  destruct (fp_steps left) as [|l0 l] eqn:El; [discriminate|]. destruct (fp_steps right) as [|r0 r] eqn:Er; [discriminate|].
  destruct (match z_prev c with Some o => o | None => (l0, r0) end) as [oldL oldR] eqn:Eo.
  repeat (apply rbind_ok in H; let x := fresh "x" in let E := fresh "E" in destruct H as (x & E & H); cbv beta zeta in H).
  destruct (nth_error (ph_shift P) 1) as [s1|] eqn:Es1; [|discriminate].
  apply rbind_ok in H; destruct H as (W & EW & H). injection H as <- <-. cbn [zo_wl zo_wr zo_zl zo_zr zo_world zo_states].
  exists oldL, oldR, s1. split; [destruct (z_prev c); [congruence|injection Eo as <- <-; auto]|]. repeat (split; [assumption || reflexivity|]). reflexivity.
Qed.

Section Run.
Variable spl : R -> R -> R -> R -> R -> R -> pva.
Variable g : gset.
Hypothesis G : good_settings g.
Variables left right : footprint.
Variables init dT : R.
Variable srt : list tstep.
Variable out : genout.
Hypothesis Gen : generate_phases g left right init dT srt = Ok out.
Let Z := ztimes_of g.
Let ph := go_ph out.
Let pl := planned (go_ord out).
Let N := (2 * length pl + 1)%nat.
Let steps := map t_step (go_ord out).

(** What an instant looks like. *)
Lemma instant_cases : forall i, (i < length (ph_left ph))%nat ->
  exists j p q, (j < N)%nat /\ (bnd ph j <= i < bnd ph (S j))%nat /\ complementary p q
  /\ seg (ph_left ph) (bnd ph j) (bnd ph (S j)) p /\ seg (ph_right ph) (bnd ph j) (bnd ph (S j)) q
  /\ (j = 0%nat -> p = SwitchIn \/ p = SwitchOut).
Proof.
  intros i Hi. destruct (generate_inv _ _ _ _ _ _ _ G Gen) as (l0 & r0 & _ & _ & Hd & _ & _ & _ & _ & _ & P & _). fold ph pl in P.
  pose proof P as P0. destruct P0. rewrite (p_size true : length (ph_left ph) = _) in Hi.
  destruct (find_interval (bnd ph) _ i p_hd Hi) as (j & Hj & Hb). destruct (interval_phase _ _ _ _ _ _ _ j P Hj) as (p & q & C & Q1 & Q2).
  exists j, p, q. repeat (split; auto). intros ->. specialize (Q1 i Hb). specialize (Q2 i Hb). destruct (nth_error pl 0) as [t|] eqn:Et.
  - destruct (p_win 0%nat t Et) as (W1 & W2 & _). cbn [Nat.mul Nat.add] in W1, W2. destruct (t_left t); cbn [foot_phases negb] in W1, W2.
    + right. specialize (W1 i Hb). congruence.
    + left. specialize (W2 i Hb). congruence.
  - apply nth_error_None in Et. assert (L0 : length pl = 0%nat) by lia. destruct p_end as [E1 E2]. rewrite L0 in E1, E2. cbn [Nat.mul Nat.add] in E1, E2.
    destruct (last_mover _ _ _); cbn [foot_phases negb] in E1, E2.
    + left. specialize (E1 i Hb). congruence.
    + right. specialize (E2 i Hb). congruence.
Qed.

Lemma run_values : forall c zo c', zmp_compute spl c Z init dT left right steps ph = Ok (zo, c') ->
  0 < dT /\ length (zo_wl zo) = length (ph_left ph) /\ length (zo_zl zo) = length (ph_left ph) /\ length (zo_zr zo) = length (ph_left ph)
  /\ forall i, (i < length (ph_left ph))%nat -> exists j p q, let n := (bnd ph (S j) - bnd ph j)%nat in let k := (i - bnd ph j)%nat in
     (j < N)%nat /\ (bnd ph j <= i < bnd ph (S j))%nat /\ complementary p q
     /\ nth_error (ph_left ph) i = Some p /\ nth_error (ph_right ph) i = Some q /\ (j = 0%nat -> p = SwitchIn \/ p = SwitchOut)
     /\ (pauses Z dT n = true -> p = SwitchIn \/ p = SwitchOut -> (1 <= n2 Z dT)%nat)
     /\ nth_error (zo_wl zo) i = Some (wval spl Z dT (init_weight c) (Nat.eqb j 0) (Nat.eqb (S j) N) p n k)
     /\ nth_error (zo_zl zo) i = Some (lval spl Z dT (z_stL c) (z_swL c) (Nat.eqb j 0) (Nat.eqb (S j) N) p n k)
     /\ nth_error (zo_zr zo) i = Some (lval spl Z dT (z_stR c) (z_swR c) (Nat.eqb j 0) (Nat.eqb (S j) N) q n k).
Proof.
  intros c zo c' H. destruct (generate_inv _ _ _ _ _ _ _ G Gen) as (l0 & r0 & _ & _ & Hd & _ & _ & _ & _ & _ & P & _). fold ph pl in P.
  destruct (zmp_parts _ _ _ _ _ _ _ _ _ _ _ H) as (oldL & oldR & s1 & _ & Hw & _ & Hzl & Hzr & _).
  destruct (weight_inv spl g G dT init _ _ Hd pl ph P true _ _ Hw) as [Lw Kw].
  destruct (local_inv spl g G dT init _ _ Hd pl ph P true _ _ _ Hzl) as [Ll Kl].
  destruct (local_inv spl g G dT init _ _ Hd pl ph P false _ _ _ Hzr) as [Lr Kr]. fold Z in Kw, Kl, Kr.
  assert (S0 : length (ph_left ph) = bnd ph N) by exact (p_size _ _ _ _ _ _ _ P true).
  split; auto. split; [rewrite Lw, S0; reflexivity|]. split; [rewrite Ll, S0; reflexivity|]. split; [rewrite Lr, S0; reflexivity|]. intros i Hi.
  destruct (instant_cases i Hi) as (j & p & q & Hj & Hb & C & Q1 & Q2 & Q3). exists j, p, q. cbv zeta.
  destruct (Kw j Hj ltac:(lia)) as (p' & S1 & V1 & V2). cbn [foot_phases] in *.
  assert (p' = p) by (pose proof (S1 i Hb); pose proof (Q1 i Hb); congruence). subst p'.
  do 8 (split; [solve [auto]|]). split; [apply (Kl j p); auto|apply (Kr j q); auto].
Qed.

Hypothesis Srt : sort_result (fp_steps left) (fp_steps right) srt.
Lemma run_order : enumerates (fp_steps left) (fp_steps right) (go_ord out) /\ StronglySorted tle (go_ord out).
Proof.
  destruct (generate_inv _ _ _ _ _ _ _ G Gen) as (l0 & r0 & _ & _ & _ & _ & _ & _ & Ho & _). destruct Srt as [Pm Sd]. split.
  - eapply enumerates_perm; [exact (order_perm _ _ Ho)|]. eapply enumerates_perm; [apply Permutation_sym; exact Pm|apply all_steps_enumerates].
  - exact (order_sorted _ _ Sd Ho).
Qed.

Hypothesis NL : named left.
Hypothesis NR : named right.
Lemma first_named : forall b, exists s, In s steps /\ st_name s = fp_name (foot_of left right b) /\ st_time s <= init.
Proof.
  intros b. destruct (generate_inv _ _ _ _ _ _ _ G Gen) as (l0 & r0 & H1 & H2 & _ & _ & T1 & T2 & _). destruct run_order as [E _].
  unfold steps. destruct b; cbn [foot_of].
  - exists l0. assert (In l0 (fp_steps left)) by (destruct (fp_steps left); [discriminate|injection H1 as ->; left; auto]).
    split; [apply (steps_in _ _ _ _ E); exists true; auto|auto].
  - exists r0. assert (In r0 (fp_steps right)) by (destruct (fp_steps right); [discriminate|injection H2 as ->; left; auto]).
    split; [apply (steps_in _ _ _ _ E); exists false; auto|auto].
Qed.

Lemma run_world : forall c zo c', zmp_compute spl c Z init dT left right steps ph = Ok (zo, c') ->
  exists oldL oldR, old_steps c left right oldL oldR /\ length (zo_world zo) = length (ph_left ph)
  /\ forall i w, nth_error (zo_world zo) i = Some w -> exists sL sR a b x y,
     latest (fp_steps left) (init + INR i * dT) sL /\ latest (fp_steps right) (init + INR i * dT) sR
     /\ nth_error (zo_wl zo) i = Some a /\ nth_error (zo_wr zo) i = Some b /\ nth_error (zo_zl zo) i = Some x /\ nth_error (zo_zr zo) i = Some y
     /\ w = world_sample (Nat.ltb i (bnd ph 1)) (correction spl dT (bnd ph 1) i) oldL oldR sL sR a b x y.
Proof.
  intros c zo c' H. destruct (run_values c zo c' H) as (Hd & L1 & L2 & L3 & _).
  destruct (generate_inv _ _ _ _ _ _ _ G Gen) as (l0 & r0 & _ & _ & _ & Hn & _). destruct run_order as [E Sd].
  destruct (zmp_parts _ _ _ _ _ _ _ _ _ _ _ H) as (oldL & oldR & s1 & Ho & _ & Ew & _ & _ & _ & Es1 & Hg & _).
  exists oldL, oldR. split; auto.
  assert (L4 : length (zo_wr zo) = length (ph_left ph)) by (rewrite Ew, map_length; auto).
  assert (B1 : s1 = bnd ph 1) by (unfold bnd; symmetry; apply nth_error_nth; auto). subst s1.
  destruct (global_zmp_ok spl init dT Hd (bnd ph 1) oldL oldR steps (fp_name left) (fp_name right) (zo_wl zo) (zo_wr zo) (zo_zl zo) (zo_zr zo)
    (first_named true) (first_named false) (length (ph_left ph)) L1 L4 L2 L3) as (W & EW & LW & KW).
  rewrite Hg in EW. injection EW as <-. split; auto. intros i w Hi. destruct (KW i w Hi) as (li & ri & sL & sR & a & b & x & y & T1 & T2 & E1 & E2 & E3 & E4 & E5 & E6 & ->).
  rewrite (Rplus_comm (INR i * dT) init) in T1, T2. exists sL, sR, a, b, x, y.
  split; [apply (found_latest left right (go_ord out) true _ li); auto|]. split; [apply (found_latest left right (go_ord out) false _ ri); auto|].
  repeat (split; [assumption|]). reflexivity.
Qed.

(** Totality. *)
Lemma run_total : forall c, no_empty_phase ph -> (g_pause g = true -> (1 <= n2 Z dT)%nat) ->
  exists zo, zmp_compute spl c Z init dT left right steps ph = Ok (zo, MkZ (z_stL c) (z_stR c) (z_swL c) (z_swR c) None None).
Proof.
  intros c Hne Hp. pose proof (first_named true) as F1. pose proof (first_named false) as F2. cbn [foot_of] in F1, F2. destruct (generate_inv _ _ _ _ _ _ _ G Gen) as (l0 & r0 & H1 & H2 & Hd & Hn & _ & _ & _ & _ & P & _). fold ph pl in P.
  pose proof P as P0. destruct P0. pose proof (Zend g G) as Z1. pose proof (Znom g G) as Z2. fold Z in Z1, Z2.
  assert (Hst : forall j, (j < N)%nat -> (bnd ph j < bnd ph (S j))%nat).
  { intros j Hj. apply (Hne j); unfold bnd; apply nth_error_nth'; fold ph; unfold N in Hj; lia. }
  assert (Ph : forall b j, (j < N)%nat -> exists p, nth_error (foot_phases ph b) (bnd ph j) = Some p /\ seg (foot_phases ph b) (bnd ph j) (bnd ph (S j)) p).
  { intros b j Hj. pose proof (Hst j Hj). destruct (interval_phase _ _ _ _ _ _ _ j P Hj) as (p & q & _ & Q1 & Q2).
    destruct b; [exists p|exists q]; cbn [foot_phases]; (split; [apply Q1 || apply Q2; lia|assumption]). }
  set (pat := fun b j => nth (bnd ph j) (foot_phases ph b) Stance).
  assert (Pat : forall b j, (j < N)%nat -> nth_error (foot_phases ph b) (bnd ph j) = Some (pat b j) /\ seg (foot_phases ph b) (bnd ph j) (bnd ph (S j)) (pat b j)).
  { intros b j Hj. destruct (Ph b j Hj) as (p & E & S). assert (pat b j = p) by (unfold pat; apply nth_error_nth; auto). rewrite H. auto. }
  set (len := fun j => (bnd ph (S j) - bnd ph j)%nat).
  assert (Ww : forall b w0, exists o, foot_weight spl Z dT (foot_phases ph b) w0 (ph_shift ph) = Ok o).
  { intros b w0. unfold foot_weight. rewrite (shift_ends g dT init _ _ pl ph P). fold N.
    pose proof (phase_loop_pieces pva (weight_piece spl Z dT (foot_phases ph b) w0) (foot_phases ph b) (bnd ph) N
      (fun j => map (wval spl Z dT w0 (Nat.eqb j 0) (Nat.eqb (S j) N) (pat b j) (len j)) (seq 0 (len j))) Hst (p_size b)) as L.
    specialize (L ltac:(intros; cbv beta; rewrite map_length, seq_length; reflexivity)).
    specialize (L ltac:(intros j Hj; exists (pat b j); split; [apply Pat; auto|apply weight_piece_ok; auto; [apply Pat; auto|];
      intros Ep; apply Hp; unfold pauses in Ep; apply andb_prop in Ep; apply Ep])).
    specialize (L N 0%nat ltac:(lia)). rewrite p_hd in L. eauto. }
  assert (Wl : forall b zs zw, exists o, local_zmp spl Z dT (foot_phases ph b) zs zw (ph_shift ph) = Ok o).
  { intros b zs zw. unfold local_zmp. rewrite (shift_ends g dT init _ _ pl ph P). fold N.
    pose proof (phase_loop_pieces pva2 (local_piece spl Z dT zs zw) (foot_phases ph b) (bnd ph) N
      (fun j => map (lval spl Z dT zs zw (Nat.eqb j 0) (Nat.eqb (S j) N) (pat b j) (len j)) (seq 0 (len j))) Hst (p_size b)) as L.
    specialize (L ltac:(intros; cbv beta; rewrite map_length, seq_length; reflexivity)).
    specialize (L ltac:(intros j Hj; exists (pat b j); split; [apply Pat; auto|apply local_piece_ok; auto])).
    specialize (L N 0%nat ltac:(lia)). rewrite p_hd in L. eauto. }
  unfold zmp_compute. destruct (fp_steps left) as [|l l'] eqn:El; [discriminate|]. destruct (fp_steps right) as [|r r'] eqn:Er; [discriminate|].
  destruct (match z_prev c with Some o => o | None => (l, r) end) as [oldL oldR]. fold (init_weight c).
  destruct (Ww true (init_weight c)) as (wl & Ewl). destruct (Wl true (z_stL c) (z_swL c)) as (zl & Ezl). destruct (Wl false (z_stR c) (z_swR c)) as (zr & Ezr).
  cbn [foot_phases] in *. rewrite Ewl. cbn [rbind].
  destruct (weight_inv spl g G dT init _ _ Hd pl ph P true _ _ Ewl) as [Lw _].
  destruct (local_inv spl g G dT init _ _ Hd pl ph P true _ _ _ Ezl) as [Ll _].
  destruct (local_inv spl g G dT init _ _ Hd pl ph P false _ _ _ Ezr) as [Lr _].
  assert (Es : (1 <= nround (g_endSwitch g / dT))%nat).
  { pose proof (Hst (2 * length pl)%nat ltac:(unfold N; lia)) as Q. replace (S (2 * length pl)) with (2 * length pl + 1)%nat in Q by lia. lia. }
  destruct (p_m Es) as (M1 & _ & _ & M4). destruct (init_states_ok (ph_merge ph) wl) as (st & E1 & _).
  { eapply merge_nonempty; eauto. }
  { apply M4. intros k Hk. replace (2 * k + 2)%nat with (S (2 * k + 1)) by lia. apply Hst. unfold N. lia. }
  { intros m Hm. rewrite Lw. apply M1. auto. }
  rewrite E1. cbn [rbind]. rewrite Ezl. cbn [rbind]. rewrite Ezr. cbn [rbind].
  assert (B1 : nth_error (ph_shift ph) 1 = Some (bnd ph 1)) by (apply nth_error_nth'; lia). rewrite B1.
  destruct (global_zmp_ok spl init dT Hd (bnd ph 1) oldL oldR steps (fp_name left) (fp_name right) wl (map mirror wl) zl zr
    F1 F2 (bnd ph N)) as (W & EW & _); auto; try (rewrite map_length; auto).
  rewrite EW. cbn [rbind]. eexists. reflexivity.
Qed.
End Run.
