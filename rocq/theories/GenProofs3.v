From Coq Require Import String Reals Lra Lia ZArith List Bool Sorting.Sorted Sorting.Permutation.
From Flocq Require Import Core.Raux.
From Verif Require Import Prelude Rounding FootPrint GenPhases GenSpec GenProofs GenProofs2.
Import ListNotations.
Open Scope R_scope.

Lemma nround_succ : forall x y, 0 <= x -> x + 1 <= y -> (nround x < nround y)%nat.
Proof.
  intros x y Hx H. assert (Hy : 0 <= y) by lra.
  pose proof (nround_bounds x Hx). pose proof (nround_bounds y Hy).
  apply INR_lt. lra.
Qed.

Lemma nround_pos : forall x, / 2 <= x -> (1 <= nround x)%nat.
Proof.
  intros x H. replace 1%nat with (nround (/ 2)). apply nround_mono. lra.
  apply nround_imp; simpl; lra.
Qed.

(** One iteration: success and absence of wrap-around. *)
Lemma cp_step_defined : forall g dT nl nr sf k nx s, good_settings g -> 0 < dT ->
  cp_step g dT (g_nomStep g - g_switchPct g * g_nomStep g) nl nr sf k nx s <> UB
  /\ (0 <= st_time (t_step nx) - c_prev s -> t_idx nx = (if t_left nx then c_li s else c_ri s) ->
      exists s', cp_step g dT (g_nomStep g - g_switchPct g * g_nomStep g) nl nr sf k nx s = Ok s').
Proof.
  intros g dT nl nr sf k nx s G Hd. unfold cp_step.
  set (stepTime := st_time (t_step nx) - c_prev s).
  destruct (Rltb stepTime 0) eqn:B.
  { apply Rltb_true in B. split; [discriminate|]. intros. lra. }
  apply Rltb_false in B.
  pose proof (switch_time_bounds g (Nat.eqb k 2) sf stepTime G B) as [S0 S1]. cbv zeta in S0, S1.
  set (switchTime := switch_time _ _ _ _ _) in *.
  assert (D1 : 0 <= switchTime / dT <= stepTime / dT) by (split; [apply div_nonneg|apply div_mono]; lra).
  assert (Hle : (nround (switchTime / dT) <= nround (stepTime / dT))%nat) by (apply nround_mono; lra).
  rewrite size_round_ok by (apply div_nonneg; lra). cbn [rbind].
  rewrite size_round_ok by lra. cbn [rbind].
  rewrite sub_size_le by lia. cbn [rbind].
  assert (M : exists mp, (if Nat.eqb k 2 then Ok []
    else do offB <- size_round (switchTime * (1 - g_mrBegin g) / dT);
         do offE <- size_round (switchTime * (1 - g_mrEnd g) / dT);
         do mi <- sub_size (c_cur s + nround (switchTime / dT)) offB;
         do mf <- sub_size (c_cur s + nround (switchTime / dT)) offE;
         Ok (range_incl mi mf)) = Ok mp).
  { destruct (Nat.eqb k 2); [eauto|].
    destruct G as [_ _ _ [[M1 M2] M3]].
    assert (O1 : 0 <= switchTime * (1 - g_mrEnd g) / dT <= switchTime * (1 - g_mrBegin g) / dT).
    { split. apply div_nonneg; auto. apply Rmult_le_pos; lra. apply div_mono; auto. apply Rmult_le_compat_l; lra. }
    assert (O2 : switchTime * (1 - g_mrBegin g) / dT <= switchTime / dT).
    { apply div_mono; auto. rewrite <- (Rmult_1_r switchTime) at 2. apply Rmult_le_compat_l; lra. }
    rewrite size_round_ok by lra. cbn [rbind]. rewrite size_round_ok by lra. cbn [rbind].
    pose proof (nround_mono (switchTime * (1 - g_mrEnd g) / dT) _ O1) as L1.
    assert (L2 : (nround (switchTime * (1 - g_mrBegin g) / dT) <= nround (switchTime / dT))%nat) by (apply nround_mono; lra).
    rewrite sub_size_le by lia. cbn [rbind]. rewrite sub_size_le by lia. cbn [rbind]. eauto. }
  destruct M as (mp & ->). cbn [rbind].
  split.
  - destruct (_ && _); discriminate.
  - intros _ Hidx. destruct (t_left nx); rewrite Hidx, Nat.eqb_refl; simpl; eauto.
Qed.

Lemma cp_loop_defined : forall g dT nl nr sf tl k s, good_settings g -> 0 < dT ->
  cp_loop g dT (g_nomStep g - g_switchPct g * g_nomStep g) nl nr sf k tl s <> UB.
Proof.
  intros g dT nl nr sf tl. induction tl as [|nx tl IH]; intros k s G Hd; simpl; [discriminate|].
  pose proof (proj1 (cp_step_defined g dT nl nr sf k nx s G Hd)) as H.
  destruct (cp_step _ _ _ _ _ _ _ _ _); simpl; auto; discriminate.
Qed.

Lemma end_samples : forall g dT, good_settings g -> 0 < dT -> dT <= 2 * g_endSwitch g ->
  (1 <= nround (g_endSwitch g / dT))%nat.
Proof.
  intros g dT G Hd H. apply nround_pos. apply (Rmult_le_reg_r dT); auto. field_simplify; lra.
Qed.

Lemma size_ceil_nonneg : forall x, -1 < x -> exists n, size_ceil x = Ok n.
Proof.
  intros x Hx. unfold size_ceil, to_size. destruct (Z.ltb_spec (Zceil x) 0) as [H|H]; eauto.
  exfalso. pose proof (Zceil_ub x). assert (IZR (Zceil x) <= -1) by (apply IZR_le; lia). lra.
Qed.

Lemma last_cons : forall (A : Type) (l : list A) a d, last (a :: l) d = last l a.
Proof. intros A l. induction l as [|b l IH]; intros; [reflexivity|]. change (last (a :: b :: l) d) with (last (b :: l) d). rewrite (IH b d), (IH b a). reflexivity. Qed.

Lemma last_in : forall (A : Type) (l : list A) d, l <> [] -> In (last l d) l.
Proof.
  intros A l d H. destruct (exists_last H) as (l' & x & ->). rewrite last_last. apply in_or_app; simpl; auto.
Qed.

Lemma sorted_last : forall l d x, StronglySorted tle l -> In x l -> tle x (last l d).
Proof.
  intros l. induction l as [|a l IH]; intros d x S H; [destruct H|].
  rewrite last_cons. inversion S as [|? ? S' F]; subst. destruct H as [->|H].
  - destruct l as [|b l]; [simpl; unfold tle; lra|]. rewrite Forall_forall in F. apply F. apply last_in. discriminate.
  - apply IH; auto.
Qed.

(** No wrap-around anywhere in the phase computation. *)
Lemma create_defined : forall g dT init nl nr fl fr ord, good_settings g -> 0 < dT ->
  dT <= 2 * g_endSwitch g -> (2 <= length ord)%nat -> StronglySorted tle ord ->
  (exists t, In t ord /\ init <= st_time (t_step t) + g_endSwitch g) ->
  create_phases g dT init nl nr fl fr ord <> UB.
Proof.
  intros g dT init nl nr fl fr [|a [|b [|c tl]]] G Hd He Hl Ss (t & Ht & Hi); simpl in Hl; try lia.
  - cbn [create_phases]. rewrite size_round_ok by (apply div_nonneg; auto; apply Rlt_le, (good_end g G)). discriminate.
  - cbn [create_phases].
    match goal with |- context [size_ceil ?x] => destruct (size_ceil_nonneg x) as (n & ->) end.
    + set (d := hd _ _). pose proof (sorted_last _ d t Ss Ht) as L. unfold tle in L.
      set (lt := st_time (t_step (last _ _))) in *.
      assert (0 <= (lt - init + g_endSwitch g) / dT) by (apply div_nonneg; lra). lra.
    + cbn [rbind].
      pose proof (cp_loop_defined g dT nl nr (Reqb fl fr) (c :: tl) 2 (MkCP [] [] [0%nat] 0 [0%nat] 1 1 init None false) G Hd) as H.
      destruct (cp_loop _ _ _ _ _ _ _ _ _) as [s| |]; cbn [rbind]; try discriminate; try contradiction.
      rewrite size_round_ok by (apply div_nonneg; auto; apply Rlt_le, (good_end g G)). cbn [rbind].
      pose proof (end_samples g dT G Hd He). rewrite sub_size_le by lia. discriminate.
Qed.

Lemma order_defined : forall srt, (2 <= length srt)%nat -> order_steps srt <> UB.
Proof.
  intros [|a [|b tl]] H; simpl in H; try lia. simpl. destruct (adjacent_equal tl); [discriminate|].
  destruct tl; [discriminate|]. destruct (_ && _); discriminate.
Qed.

Lemma all_steps_length : forall l r, length (all_steps l r) = (length l + length r)%nat.
Proof.
  intros. unfold all_steps. rewrite app_length.
  assert (H : forall b l i, length (tag_from b i l) = length l) by (intros b l0; induction l0; intros; simpl; auto).
  rewrite !H. reflexivity.
Qed.

Lemma sort_in : forall l r srt b i s, sort_result l r srt -> nth_error (foot_list l r b) i = Some s -> In (MkT b i s) srt.
Proof.
  intros l r srt b i s [P _] H. apply (Permutation_in _ (Permutation_sym P)).
  apply (proj2 (all_steps_enumerates l r)). auto.
Qed.

Lemma generate_defined : forall g left right init dT srt, good_settings g ->
  sort_result (fp_steps left) (fp_steps right) srt -> dT <= 2 * g_endSwitch g ->
  (exists b i s, nth_error (foot_list (fp_steps left) (fp_steps right) b) i = Some s
                 /\ init <= st_time s + g_endSwitch g) ->
  generate_phases g left right init dT srt <> UB.
Proof.
  intros g left right init dT srt G S He (b & i & s & Hs & Hi). unfold generate_phases, fp_number.
  destruct (fp_steps left) as [|l0 l] eqn:El; [discriminate|].
  destruct (fp_steps right) as [|r0 r] eqn:Er; [discriminate|]. cbn [length Nat.ltb Nat.leb].
  destruct (String.eqb _ _); [discriminate|]. destruct (Rleb dT 0) eqn:Ed; [discriminate|]. apply Rleb_false in Ed.
  destruct (Rltb _ _); [discriminate|].
  assert (Ls : (2 <= length srt)%nat).
  { destruct S as [P _]. rewrite (Permutation_length P), all_steps_length. simpl. lia. }
  pose proof (order_defined srt Ls) as HO.
  destruct (order_steps srt) as [ord| |] eqn:Eo; cbn [rbind]; try discriminate; try contradiction.
  match goal with |- context [create_phases ?a1 ?a2 ?a3 ?a4 ?a5 ?a6 ?a7 ?a8] =>
    pose proof (create_defined a1 a2 a3 a4 a5 a6 a7 a8 G Ed He) as HC end.
  destruct (create_phases _ _ _ _ _ _ _ _); cbn [rbind]; try discriminate.
  intros _. apply HC; auto.
  - rewrite <- (Permutation_length (order_perm _ _ Eo)). auto.
  - eapply order_sorted; [apply S|exact Eo].
  - exists (MkT b i s). split; auto. apply (Permutation_in _ (order_perm _ _ Eo)). eapply sort_in; eauto.
Qed.

(** Successful runs. *)
Lemma generate_inv : forall g left right init dT srt out, good_settings g ->
  generate_phases g left right init dT srt = Ok out ->
  exists l0 r0, hd_error (fp_steps left) = Some l0 /\ hd_error (fp_steps right) = Some r0
  /\ 0 < dT /\ fp_name left <> fp_name right /\ st_time l0 <= init /\ st_time r0 <= init
  /\ order_steps srt = Ok (go_ord out) /\ (2 <= length (go_ord out))%nat
  /\ PhOk g dT init (st_time l0) (st_time r0) (planned (go_ord out)) (go_ph out)
  /\ go_lContact out = map contact_of (ph_left (go_ph out))
  /\ go_rContact out = map contact_of (ph_right (go_ph out))
  /\ go_leftFixed out = map fixed_of (ph_left (go_ph out)).
Proof.
  intros g left right init dT srt out G H. unfold generate_phases, fp_number in H.
  destruct (fp_steps left) as [|l0 l] eqn:El; [discriminate|].
  destruct (fp_steps right) as [|r0 r] eqn:Er; [discriminate|]. cbn [length Nat.ltb Nat.leb] in H.
  destruct (String.eqb _ _) eqn:En; [discriminate|]. destruct (Rleb dT 0) eqn:Ed; [discriminate|]. apply Rleb_false in Ed.
  destruct (Rltb _ _) eqn:Ei; [discriminate|]. apply Rltb_false in Ei.
  apply rbind_ok in H. destruct H as (ord & Ho & H). apply rbind_ok in H. destruct H as (ph & Hp & H).
  inversion H; subst out; clear H. cbn [go_ord go_ph go_lContact go_rContact go_leftFixed].
  destruct (create_ok _ _ _ _ _ _ _ _ _ G Ed Hp) as [L P].
  exists l0, r0. apply String.eqb_neq in En.
  pose proof (Rmax_l (st_time l0) (st_time r0)). pose proof (Rmax_r (st_time l0) (st_time r0)).
  repeat (split; [auto; try lra|]). auto.
Qed.

(** C36 completeness of indices: in a successful run each foot performs all of its planned steps. *)
Lemma foot_indices_length : forall pl, (length (foot_indices true pl) + length (foot_indices false pl) = length pl)%nat.
Proof.
  unfold foot_indices. intros pl. rewrite !map_length. induction pl as [|t pl IH]; simpl; auto.
  destruct (t_left t); simpl; lia.
Qed.

Lemma foot_indices_filter_len : forall ord b l r, enumerates l r ord ->
  length (foot_indices b ord) = length (foot_list l r b).
Proof.
  intros ord b l r [ND IN].
  assert (N1 : NoDup (foot_indices b ord)).
  { unfold foot_indices. revert ND. clear. induction ord as [|t ord IH]; simpl; [constructor|]. intros H. inversion H; subst.
    specialize (IH H3). destruct (Bool.eqb (t_left t) b) eqn:E; simpl; auto. constructor; auto.
    apply Bool.eqb_prop in E. intros C. apply in_map_iff in C. destruct C as (u & E1 & Hu). apply filter_In in Hu. destruct Hu as [Hu E2].
    apply Bool.eqb_prop in E2. apply H2. apply in_map_iff. exists u. split; auto. congruence. }
  assert (E1 : forall i, In i (foot_indices b ord) <-> In i (seq 0 (length (foot_list l r b)))).
  { intros i. rewrite in_seq. unfold foot_indices. rewrite in_map_iff. split.
    - intros (t & <- & Ht). apply filter_In in Ht. destruct Ht as [Ht E]. apply Bool.eqb_prop in E. subst b.
      destruct t as [tb ti ts]. apply IN in Ht. simpl in *. split; [lia|]. apply nth_error_Some. congruence.
    - intros [_ H]. simpl in H. destruct (nth_error (foot_list l r b) i) as [s|] eqn:E; [|apply nth_error_None in E; lia].
      apply IN in E. exists (MkT b i s). split; auto. apply filter_In. split; auto. simpl. apply Bool.eqb_reflx. }
  assert (P : Permutation (foot_indices b ord) (seq 0 (length (foot_list l r b)))).
  { apply NoDup_Permutation; auto. apply seq_NoDup. }
  rewrite (Permutation_length P), seq_length. reflexivity.
Qed.

Lemma foot_indices_app : forall b x y, foot_indices b (x ++ y) = foot_indices b x ++ foot_indices b y.
Proof. intros. unfold foot_indices. rewrite filter_app, map_app. reflexivity. Qed.

Lemma indices_complete : forall l r ord nl nr, enumerates l r ord -> (2 <= length ord)%nat ->
  l <> [] -> r <> [] ->
  foot_indices true (planned ord) = seq 1 nl -> foot_indices false (planned ord) = seq 1 nr ->
  nl = (length l - 1)%nat /\ nr = (length r - 1)%nat.
Proof.
  intros l r [|a [|b pl]] nl nr E L Nl Nr Hl Hr; simpl in L; try lia. unfold planned in *. cbn [tl] in *.
  pose proof (foot_indices_filter_len _ true _ _ E) as A. pose proof (foot_indices_filter_len _ false _ _ E) as B.
  change (a :: b :: pl) with ([a; b] ++ pl) in A, B. rewrite foot_indices_app, app_length in A, B. simpl foot_list in A, B.
  rewrite Hl, seq_length in A. rewrite Hr, seq_length in B.
  pose proof (foot_indices_length [a; b]) as C. simpl length in C.
  (* index 0 of each foot can only be in the first two *)
  assert (F : forall b0, (1 <= length (foot_indices b0 [a; b]))%nat).
  { intros b0. destruct (foot_list l r b0) as [|s rest] eqn:Ef; [destruct b0; simpl in Ef; congruence|].
    assert (I0 : In (MkT b0 0 s) (a :: b :: pl)) by (apply E; rewrite Ef; reflexivity).
    change (a :: b :: pl) with ([a; b] ++ pl) in I0. apply in_app_or in I0.
    assert (I1 : In 0%nat (foot_indices b0 ([a; b] ++ pl))).
    { unfold foot_indices. apply in_map_iff. exists (MkT b0 0 s). split; auto. apply filter_In. split; [apply in_or_app; auto|apply Bool.eqb_reflx]. }
    rewrite foot_indices_app in I1. apply in_app_or in I1. destruct I1 as [I1|I1].
    - destruct (foot_indices b0 [a; b]); [destruct I1|simpl; lia].
    - exfalso. destruct b0; [rewrite Hl in I1|rewrite Hr in I1]; apply in_seq in I1; lia. }
  pose proof (F true). pose proof (F false). lia.
Qed.

(** Well-formed walks are accepted. *)
Lemma ssorted_seq : forall n a l, StronglySorted lt l -> (forall i, In i l <-> (a <= i < a + n)%nat) -> l = seq a n.
Proof.
  induction n; intros a l S H.
  - destruct l as [|x l]; auto. exfalso. pose proof (proj1 (H x) (or_introl eq_refl)). lia.
  - destruct l as [|x l].
    + exfalso. apply (proj2 (H a)). lia.
    + inversion S as [|? ? S' F]; subst. rewrite Forall_forall in F.
      assert (x = a).
      { pose proof (proj1 (H x) (or_introl eq_refl)). pose proof (proj2 (H a) ltac:(lia)) as Ha. destruct Ha as [Ha|Ha]; auto.
        specialize (F _ Ha). lia. }
      subst x. simpl. f_equal. apply IHn; auto. intros i. split.
      * intros Hi. pose proof (F _ Hi). pose proof (proj1 (H i) (or_intror Hi)). lia.
      * intros Hi. pose proof (proj2 (H i) ltac:(lia)) as [->|]; auto. lia.
Qed.

Lemma strictly_timed_nth : forall l i j a b, strictly_timed l -> nth_error l i = Some a -> nth_error l j = Some b ->
  (i < j)%nat -> st_time a < st_time b.
Proof.
  intros l. induction l as [|x l IH]; intros i j a b S Hi Hj L; [destruct i; discriminate|].
  inversion S as [|? ? S' F]; subst. destruct i, j; simpl in *; try lia.
  - inversion Hi; subst. rewrite Forall_forall in F. apply F. eapply nth_error_In; eauto.
  - apply (IH i j); auto. lia.
Qed.

Lemma nodup_tail2 : forall (A B : Type) (f : A -> B) a b l, NoDup (map f (a :: b :: l)) ->
  NoDup (map f l) /\ f a <> f b /\ forall x, In x l -> f x <> f a /\ f x <> f b.
Proof.
  intros A B f a b l H. simpl in H. inversion H as [|? ? N1 H1]; subst. inversion H1 as [|? ? N2 H2]; subst.
  split; auto. split. intros E. apply N1. left; auto.
  intros x Hx. split; intros E; [apply N1; right|apply N2]; rewrite <- E; apply in_map; auto.
Qed.

Lemma ord_structure : forall l r init lead gap ord, 0 < gap -> walk l r init lead gap ->
  enumerates l r ord -> StronglySorted tle ord ->
  exists a b pl, ord = a :: b :: pl /\ t_idx a = 0%nat /\ t_idx b = 0%nat /\ t_left a <> t_left b
  /\ st_time (t_step a) <= init /\ st_time (t_step b) <= init
  /\ foot_indices true pl = seq 1 (length l - 1) /\ foot_indices false pl = seq 1 (length r - 1)
  /\ (forall t, In t pl -> planned_step l r (t_left t) (t_idx t) (t_step t))
  /\ NoDup (map (fun t => (t_left t, t_idx t)) pl).
Proof.
  intros l r init lead gap ord Hg W E Sd. destruct W.
  assert (L0 : exists s, nth_error (foot_list l r true) 0 = Some s) by (destruct l; [congruence|simpl; eauto]).
  assert (R0 : exists s, nth_error (foot_list l r false) 0 = Some s) by (destruct r; [congruence|simpl; eauto]).
  destruct L0 as (sl & L0). destruct R0 as (sr & R0).
  pose proof (w_first _ _ L0) as TL. pose proof (w_first _ _ R0) as TR.
  destruct E as [ND IN].
  pose proof (proj2 (IN true 0%nat sl) L0) as IL. pose proof (proj2 (IN false 0%nat sr) R0) as IR.
  assert (Early : forall t, In t ord -> st_time (t_step t) <= init -> t = MkT true 0 sl \/ t = MkT false 0 sr).
  { intros [tb ti ts] Ht Hs. apply IN in Ht. simpl in Hs. destruct ti as [|ti].
    - destruct tb; [left|right]; f_equal; congruence.
    - exfalso. destruct (w_later tb (S ti) ts) as [H _]; [split; auto; lia|]. lra. }
  destruct ord as [|a [|b pl]].
  { destruct IL. }
  { exfalso. destruct IL as [->|[]]. destruct IR as [X|[]]. congruence. }
  inversion Sd as [|? ? Sb Fa]; subst. inversion Sb as [|? ? Sc Fb]; subst.
  rewrite Forall_forall in Fa, Fb. unfold tle in Fa, Fb.
  assert (Ta : st_time (t_step a) <= init).
  { destruct IL as [->|H]; auto. specialize (Fa _ H). simpl in Fa. lra. }
  assert (Tb : st_time (t_step b) <= init).
  { destruct IL as [HL|[->|H]]; auto.
    - destruct IR as [HR|[->|H]]; auto; [congruence|]. specialize (Fb _ H). simpl in Fb. lra.
    - specialize (Fb _ H). simpl in Fb. lra. }
  destruct (nodup_tail2 _ _ _ _ _ _ ND) as (NDp & Nab & Npl). cbv beta in *.
  pose proof (Early a (or_introl eq_refl) Ta) as Ea. pose proof (Early b (or_intror (or_introl eq_refl)) Tb) as Eb.
  assert (PL : forall t, In t pl -> planned_step l r (t_left t) (t_idx t) (t_step t)).
  { intros [tb ti ts] Ht. simpl. split; [|apply IN; right; right; auto].
    destruct ti; [|lia]. exfalso. destruct (Npl _ Ht) as [P Q]. simpl in P, Q.
    destruct tb, Ea as [Ea|Ea], Eb as [Eb|Eb]; subst a b; simpl in *; congruence. }
  assert (FI : forall b0, foot_indices b0 pl = seq 1 (length (foot_list l r b0) - 1)).
  { intros b0. apply ssorted_seq.
    - assert (Ss : strictly_timed (foot_list l r b0)) by (destruct b0; auto).
      clear Fb Fa Sb Sd Npl IL IR Early ND Ea Eb IN. unfold foot_indices. induction pl as [|t pl IH]; simpl; [constructor|].
      inversion Sc as [|? ? Sc' Fc]; subst. simpl in NDp. inversion NDp as [|? ? ND1 ND2]; subst.
      specialize (IH Sc' ND2 (fun t Ht => PL t (or_intror Ht))).
      destruct (Bool.eqb (t_left t) b0) eqn:E; simpl; auto. apply Bool.eqb_prop in E. constructor; auto.
      apply Forall_forall. intros i Hi. apply in_map_iff in Hi. destruct Hi as (u & <- & Hu). apply filter_In in Hu.
      destruct Hu as [Hu E2]. apply Bool.eqb_prop in E2.
      destruct (Nat.lt_trichotomy (t_idx t) (t_idx u)) as [H|[H|H]]; auto; exfalso.
      + apply ND1. apply in_map_iff. exists u. split; auto. congruence.
      + destruct (PL t (or_introl eq_refl)) as [_ P1]. destruct (PL u (or_intror Hu)) as [_ P2].
        rewrite E in P1. rewrite E2 in P2.
        pose proof (strictly_timed_nth _ _ _ _ _ Ss P2 P1 H). rewrite Forall_forall in Fc. specialize (Fc _ Hu). unfold tle in Fc. lra.
    - intros i. unfold foot_indices. rewrite in_map_iff. split.
      + intros (u & <- & Hu). apply filter_In in Hu. destruct Hu as [Hu E2]. apply Bool.eqb_prop in E2.
        destruct (PL _ Hu) as [P1 P2]. rewrite E2 in P2. assert (t_idx u < length (foot_list l r b0))%nat by (apply nth_error_Some; congruence). lia.
      + intros Hi. destruct (nth_error (foot_list l r b0) i) as [s|] eqn:En; [|apply nth_error_None in En; lia].
        pose proof (proj2 (IN b0 i s) En) as H. exists (MkT b0 i s). split; auto. apply filter_In. simpl. rewrite Bool.eqb_reflx. split; auto.
        destruct H as [H|[H|H]]; auto; exfalso.
        * rewrite H in Ea. destruct Ea as [Ea|Ea]; apply (f_equal t_idx) in Ea; simpl in Ea; lia.
        * rewrite H in Eb. destruct Eb as [Eb|Eb]; apply (f_equal t_idx) in Eb; simpl in Eb; lia. }
  exists a, b, pl. split; auto.
  destruct Ea as [Ea|Ea], Eb as [Eb|Eb]; subst a b; simpl in *; try congruence;
    repeat (split; [auto; try discriminate; try (apply (FI true)); try (apply (FI false))|]); auto; split; auto.
Qed.

Lemma prev_close : forall dT init done s t, Inv dT init done s -> (exists d, done = d ++ [t]) ->
  Rabs (c_prev s - st_time (t_step t)) <= dT / 2.
Proof.
  intros dT init done s t I (d & ->). destruct I.
  assert (N : nth_error (d ++ [t]) (length d) = Some t) by (rewrite nth_error_app2, Nat.sub_diag by lia; reflexivity).
  specialize (i_time _ _ N). rewrite app_length in i_cur. cbn [length] in i_cur.
  replace (2 * length d + 2)%nat with (2 * (length d + 1))%nat in i_time by lia. rewrite i_cur in i_time.
  rewrite i_prev. exact i_time.
Qed.

(** Impact times of consecutive planned steps, starting from [init]. *)
Lemma loop_accepts : forall g dT init nl nr sf lead gap tl done k s, good_settings g -> 0 < dT ->
  dT / 2 <= gap -> 0 <= lead -> k = (2 + length done)%nat -> Inv dT init done s ->
  (exists n, foot_indices true (done ++ tl) = seq 1 n) -> (exists n, foot_indices false (done ++ tl) = seq 1 n) ->
  match rev done with [] => spaced init lead (map t_step (firstn 1 tl)) | t :: _ => spaced (st_time (t_step t)) gap (map t_step (firstn 1 tl)) end ->
  (match tl with [] => True | t :: r => spaced (st_time (t_step t)) gap (map t_step r) end) ->
  exists s', cp_loop g dT (g_nomStep g - g_switchPct g * g_nomStep g) nl nr sf k tl s = Ok s'.
Proof.
  intros g dT init nl nr sf lead gap tl. induction tl as [|nx tl IH]; intros done k s G Hd Hg Hlead Hk I HL HR H1 H2; simpl; [eauto|].
  destruct (cp_step_defined g dT nl nr sf k nx s G Hd) as [_ OK].
  assert (T : 0 <= st_time (t_step nx) - c_prev s).
  { destruct (rev done) as [|t rd] eqn:E.
    - simpl in H1. assert (done = []) by (rewrite <- (rev_involutive done), E; reflexivity). subst done.
      destruct I. simpl in i_cur. rewrite i_hd in i_cur. rewrite <- i_cur in i_prev. simpl in i_prev. lra.
    - assert (Hd' : done = rev rd ++ [t]) by (rewrite <- (rev_involutive done), E; reflexivity).
      pose proof (prev_close _ _ _ _ _ I (ex_intro _ _ Hd')) as C. apply Rabs_le_inv in C. simpl in H1. lra. }
  assert (X : t_idx nx = (if t_left nx then c_li s else c_ri s)).
  { destruct I. destruct HL as (n1 & HL), HR as (n2 & HR). rewrite foot_indices_app in HL, HR.
    change (nx :: tl) with ([nx] ++ tl) in HL, HR. rewrite foot_indices_app in HL, HR.
    assert (Q : forall m c n x rest, (1 <= c)%nat -> seq 1 (c - 1) ++ [x] ++ rest = seq 1 n -> m = x -> m = c).
    { intros m c n x rest Hc Hs ->. assert (Hn : nth_error (seq 1 n) (c - 1) = Some x).
      { rewrite <- Hs, nth_error_app2 by (rewrite seq_length; lia). rewrite seq_length, Nat.sub_diag. reflexivity. }
      assert (c - 1 < n)%nat. { rewrite <- (seq_length n 1). apply nth_error_Some. congruence. }
      rewrite (nth_error_nth' _ 0%nat) in Hn by (rewrite seq_length; auto). rewrite seq_nth in Hn by auto. inversion Hn. lia. }
    destruct (t_left nx) eqn:E.
    - destruct i_li as [A B]. rewrite A in HL. replace (foot_indices true [nx]) with [t_idx nx] in HL by (unfold foot_indices; simpl; rewrite E; reflexivity).
      exact (Q _ _ n1 (t_idx nx) (foot_indices true tl) B HL eq_refl).
    - destruct i_ri as [A B]. rewrite A in HR. replace (foot_indices false [nx]) with [t_idx nx] in HR by (unfold foot_indices; simpl; rewrite E; reflexivity).
      exact (Q _ _ n2 (t_idx nx) (foot_indices false tl) B HR eq_refl). }
  destruct (OK T X) as (s1 & Hs1). rewrite Hs1. simpl.
  apply (IH (done ++ [nx])); auto.
  - rewrite app_length. simpl. lia.
  - eapply Inv_step; eauto.
  - rewrite <- app_assoc. exact HL.
  - rewrite <- app_assoc. exact HR.
  - rewrite rev_app_distr. simpl. destruct tl as [|t2 tl]; simpl; auto. simpl in H2. tauto.
  - destruct tl as [|t2 tl]; auto. simpl in H2. tauto.
Qed.

Lemma planned_spaced : forall l r init lead gap pl, 0 < gap -> walk l r init lead gap ->
  (forall t, In t pl -> planned_step l r (t_left t) (t_idx t) (t_step t)) ->
  NoDup (map (fun t => (t_left t, t_idx t)) pl) -> StronglySorted tle pl ->
  match pl with [] => True | t :: q => init + lead <= st_time (t_step t) /\ spaced (st_time (t_step t)) gap (map t_step q) end.
Proof.
  intros l r init lead gap pl Hg W. induction pl as [|t q IH]; auto. intros PL ND S.
  inversion S as [|? ? S' F]; subst. simpl in ND. inversion ND as [|? ? ND1 ND2]; subst.
  specialize (IH (fun t Ht => PL t (or_intror Ht)) ND2 S'). split.
  - apply (w_later _ _ _ _ _ W _ _ _ (PL t (or_introl eq_refl))).
  - destruct q as [|u q]; simpl; auto. split; [|apply IH].
    assert (Hne : (t_left t, t_idx t) <> (t_left u, t_idx u)) by (intros E; apply ND1; left; auto).
    pose proof (w_gap _ _ _ _ _ W _ _ _ _ _ _ (PL t (or_introl eq_refl)) (PL u (or_intror (or_introl eq_refl))) Hne) as G.
    inversion F as [|? ? F1 _]; subst. unfold tle in F1. rewrite Rabs_left1 in G by lra. lra.
Qed.

Lemma adjacent_spaced : forall gap l, 0 < gap ->
  match l with [] => True | t :: q => spaced (st_time (t_step t)) gap (map t_step q) end -> adjacent_equal l = false.
Proof.
  intros gap l Hg. induction l as [|a l IH]; auto. intros H. destruct l as [|b l]; auto. simpl in H. destruct H as [H1 H2].
  change (adjacent_equal (a :: b :: l)) with (Reqb (st_time (t_step a)) (st_time (t_step b)) || adjacent_equal (b :: l)).
  rewrite IH; auto. rewrite orb_false_r. apply Reqb_false. lra.
Qed.

Lemma walk_accepted : forall g left right init dT srt gap, good_settings g -> 0 < dT ->
  fp_name left <> fp_name right -> sort_result (fp_steps left) (fp_steps right) srt ->
  dT <= 2 * g_endSwitch g -> dT / 2 <= gap ->
  walk (fp_steps left) (fp_steps right) init 0 gap ->
  exists out, generate_phases g left right init dT srt = Ok out.
Proof.
  intros g left right init dT srt gap G Hd Hn Hs He Hg W.
  assert (Hg0 : 0 < gap) by lra.
  unfold generate_phases, fp_number. pose proof W as W0. destruct W.
  destruct (fp_steps left) as [|l0 l] eqn:El; [congruence|].
  destruct (fp_steps right) as [|r0 r] eqn:Er; [congruence|]. cbn [length Nat.ltb Nat.leb].
  apply String.eqb_neq in Hn. rewrite Hn.
  destruct (Rleb dT 0) eqn:Ed; [apply Rleb_true in Ed; lra|].
  destruct (Rltb _ _) eqn:Ei.
  { apply Rltb_true in Ei. pose proof (w_first true l0 eq_refl). pose proof (w_first false r0 eq_refl).
    unfold Rmax in Ei. destruct (Rle_dec _ _); lra. }
  destruct Hs as [P Sd].
  assert (Es : enumerates (l0 :: l) (r0 :: r) srt) by (eapply enumerates_perm; [apply Permutation_sym; exact P|apply all_steps_enumerates]).
  destruct (ord_structure _ _ _ _ _ _ Hg0 W0 Es Sd) as (a & b & pl & -> & A1 & A2 & A3 & A4 & A5 & A6 & A7 & A8 & A9).
  assert (Sp : StronglySorted tle pl) by (inversion Sd as [|? ? Q ?]; inversion Q; auto).
  pose proof (planned_spaced _ _ _ _ _ pl Hg0 W0 A8 A9 Sp) as SP.
  assert (AE : adjacent_equal pl = false).
  { apply (adjacent_spaced gap); auto. destruct pl; auto; tauto. }
  assert (O : exists a' b', order_steps (a :: b :: pl) = Ok (a' :: b' :: pl)).
  { simpl. rewrite AE. destruct pl; eauto. destruct (_ && _); eauto. }
  destruct O as (a' & b' & O). rewrite O. cbn [rbind].
  assert (C : exists ph, create_phases g dT init (S (length l)) (S (length r)) (st_time l0) (st_time r0) (a' :: b' :: pl) = Ok ph).
  { pose proof (good_end g G) as GE.
    destruct pl as [|c pl].
    - cbn [create_phases]. rewrite size_round_ok by (apply div_nonneg; lra). simpl. eauto.
    - cbn [create_phases].
      match goal with |- context [size_ceil ?x] => destruct (size_ceil_nonneg x) as (n & ->) end.
      { set (d := hd _ _). set (lt := st_time (t_step (last _ _))).
        assert (st_time (t_step c) <= lt).
        { unfold lt. rewrite !last_cons. destruct pl as [|c2 pl]; [simpl; lra|].
          assert (L := sorted_last (c :: c2 :: pl) c c Sp (or_introl eq_refl)). unfold tle in L. rewrite last_cons in L. exact L. }
        assert (0 <= (lt - init + g_endSwitch g) / dT) by (apply div_nonneg; lra). lra. }
      cbn [rbind].
      destruct (loop_accepts g dT init (S (length l)) (S (length r)) (Reqb (st_time l0) (st_time r0)) 0 gap (c :: pl) [] 2
                 (MkCP [] [] [0%nat] 0 [0%nat] 1 1 init None false)) as (s & ->); auto; try lra.
      + apply Inv_0.
      + simpl app. eauto.
      + simpl app. eauto.
      + simpl. tauto.
      + tauto.
      + cbn [rbind]. rewrite size_round_ok by (apply div_nonneg; lra). cbn [rbind].
        pose proof (end_samples g dT G Hd He). rewrite sub_size_le by lia. cbn [rbind]. eauto. }
  destruct C as (ph & ->). cbn [rbind]. eauto.
Qed.

(** Non-empty swings. *)
Lemma swing_nonempty : forall g dT f sf t, good_settings g -> 0 < dT -> 0 <= t ->
  dT <= (1 - g_switchPct g) * g_nomStep g -> dT <= (1 - g_switchPct g) * t ->
  (nround (switch_time g (g_nomStep g - g_switchPct g * g_nomStep g) f sf t / dT) < nround (t / dT))%nat.
Proof.
  intros g dT f sf t G Hd Ht H1 H2.
  pose proof (switch_time_bounds g f sf t G Ht) as [B1 B2]. cbv zeta in B1, B2.
  apply nround_succ; [apply div_nonneg; lra|].
  assert (D : dT <= t - switch_time g (g_nomStep g - g_switchPct g * g_nomStep g) f sf t).
  { destruct G as [[P0 P1] E [N1 N2] M]. unfold switch_time in *.
    set (p := g_switchPct g) in *.
    destruct (f && negb sf).
    - replace (t - p / (1 - p / 2) * t / 2) with ((1 - p) * t * (2 / (2 - p))) by (field; lra).
      assert (1 <= 2 / (2 - p)) by (apply (Rmult_le_reg_r (2 - p)); [lra|]; field_simplify; lra).
      assert (0 <= (1 - p) * t) by lra.
      assert ((1 - p) * t * 1 <= (1 - p) * t * (2 / (2 - p))) by (apply Rmult_le_compat_l; auto). lra.
    - destruct (g_pause g && Rgtb t (g_maxStep g)); lra. }
  apply (Rmult_le_reg_r dT); auto.
  replace ((switch_time g (g_nomStep g - g_switchPct g * g_nomStep g) f sf t / dT + 1) * dT) with
    (switch_time g (g_nomStep g - g_switchPct g * g_nomStep g) f sf t + dT) by (field; lra).
  replace (t / dT * dT) with t by (field; lra). lra.
Qed.

Lemma loop_swings : forall g dT init nl nr sf lead gap tl done k s s', good_settings g -> 0 < dT ->
  dT <= (1 - g_switchPct g) * g_nomStep g ->
  dT <= (1 - g_switchPct g) * (gap - dT / 2) -> dT <= (1 - g_switchPct g) * lead ->
  k = (2 + length done)%nat -> Inv dT init done s ->
  (forall j, (j < length done)%nat -> (sh s (2 * j + 1) < sh s (2 * j + 2))%nat) ->
  match rev done with [] => spaced init lead (map t_step (firstn 1 tl)) | t :: _ => spaced (st_time (t_step t)) gap (map t_step (firstn 1 tl)) end ->
  (match tl with [] => True | t :: r => spaced (st_time (t_step t)) gap (map t_step r) end) ->
  cp_loop g dT (g_nomStep g - g_switchPct g * g_nomStep g) nl nr sf k tl s = Ok s' ->
  (forall j, (j < length (done ++ tl))%nat -> (sh s' (2 * j + 1) < sh s' (2 * j + 2))%nat).
Proof.
  intros g dT init nl nr sf lead gap tl. induction tl as [|nx tl IH]; intros done k s s' G Hd Hn Hg Hl Hk I Hsw H1 H2 H; simpl in H.
  - inversion H; subst. rewrite app_nil_r. auto.
  - apply rbind_ok in H. destruct H as (s1 & Hs1 & H).
    pose proof (Inv_step _ _ _ _ _ _ _ _ _ _ _ G Hd Hk I Hs1) as I1.
    destruct (cp_step_inv _ _ _ _ _ _ _ _ _ G Hd Hs1) as (T0 & Hle & _ & _ & _ & Hsh & _). cbv zeta in *.
    assert (P1 : 0 < 1 - g_switchPct g) by (pose proof (good_pct g G); lra).
    assert (T : dT <= (1 - g_switchPct g) * (st_time (t_step nx) - c_prev s)).
    { destruct (rev done) as [|t rd] eqn:E.
      - simpl in H1. assert (done = []) by (rewrite <- (rev_involutive done), E; reflexivity). subst done.
        destruct I. simpl in i_cur. rewrite i_hd in i_cur. rewrite <- i_cur in i_prev. simpl in i_prev.
        assert ((1 - g_switchPct g) * lead <= (1 - g_switchPct g) * (st_time (t_step nx) - c_prev s)) by (apply Rmult_le_compat_l; lra). lra.
      - assert (Hd' : done = rev rd ++ [t]) by (rewrite <- (rev_involutive done), E; reflexivity).
        pose proof (prev_close _ _ _ _ _ I (ex_intro _ _ Hd')) as C. apply Rabs_le_inv in C. simpl in H1.
        assert ((1 - g_switchPct g) * (gap - dT / 2) <= (1 - g_switchPct g) * (st_time (t_step nx) - c_prev s)) by (apply Rmult_le_compat_l; lra). lra. }
    pose proof (swing_nonempty g dT (Nat.eqb k 2) sf _ G Hd T0 Hn T) as SW.
    replace (done ++ nx :: tl) with ((done ++ [nx]) ++ tl) by (rewrite <- app_assoc; reflexivity).
    apply (IH (done ++ [nx]) (S k) s1 s'); auto.
    + rewrite app_length. simpl. lia.
    + rewrite app_length. cbn [length]. intros j Hj. destruct I. unfold sh in *. rewrite Hsh, !nth_snoc2, i_len.
      destruct (Nat.eq_dec j (length done)) as [->|].
      * destruct (Nat.ltb_spec (2 * length done + 1) (2 * length done + 1)); [lia|]. rewrite Nat.eqb_refl.
        destruct (Nat.ltb_spec (2 * length done + 2) (2 * length done + 1)); [lia|].
        destruct (Nat.eqb_spec (2 * length done + 2) (2 * length done + 1)); [lia|].
        destruct (Nat.eqb_spec (2 * length done + 2) (S (2 * length done + 1))); [|lia]. apply Nat.add_lt_mono_l; exact SW.
      * destruct (Nat.ltb_spec (2 * j + 1) (2 * length done + 1)); [|lia].
        destruct (Nat.ltb_spec (2 * j + 2) (2 * length done + 1)); [|lia]. apply Hsw. lia.
    + rewrite rev_app_distr. simpl. destruct tl as [|t2 tl]; simpl; auto. simpl in H2. tauto.
    + destruct tl as [|t2 tl]; auto. simpl in H2. tauto.
Qed.
