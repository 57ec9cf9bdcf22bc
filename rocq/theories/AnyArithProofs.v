(** The phase computation for an arbitrary arithmetic. *)
From Coq Require Import String ZArith List Bool Lia Sorting.Sorted Sorting.Permutation.
From Verif Require Import Prelude Rounding GenPhases GenSpec Doubles DoublesGen AnyArithSpec.
Import ListNotations.

Lemma last_app1 : forall (l : list nat) x d, last (l ++ [x]) d = x.
Proof. intros. rewrite last_last. reflexivity. Qed.
Lemma last_any : forall {X : Type} (l : list X) x d e, last (x :: l) d = last (x :: l) e.
Proof. induction l as [|y l IH]; intros; auto. change (last (x :: y :: l) d) with (last (y :: l) d). rewrite (IH y d e). reflexivity. Qed.
Lemma last_shift : forall {X : Type} (l : list X) x d, last (x :: l) d = last l x.
Proof. intros X [|y l] x d; auto. change (last (x :: y :: l) d) with (last (y :: l) d). apply last_any. Qed.
Lemma drawn_step : forall mine bs a w m b c, length bs = 2 * length mine ->
  drawn a (mine ++ [m]) (bs ++ [b; c]) w
  = drawn a mine bs w ++ repeat (if m then SwitchOut else SwitchIn) (b - last bs a) ++ repeat (if m then Swing else Stance) (c - b).
Proof.
  induction mine as [|m0 mine IH]; intros bs a w m b c H.
  - destruct bs; [|discriminate]. cbn. rewrite app_nil_r. reflexivity.
  - destruct bs as [|x [|y bs]]; cbn [length] in H; try lia. cbn [app drawn]. rewrite IH by (cbn [length] in *; lia).
    rewrite <- !app_assoc. rewrite !last_shift. reflexivity.
Qed.
Lemma drawn_end : forall mine bs a w e, length bs = 2 * length mine ->
  drawn a mine (bs ++ [e]) w = drawn a mine bs w ++ repeat (if last mine w then SwitchIn else SwitchOut) (e - last bs a).
Proof.
  induction mine as [|m0 mine IH]; intros bs a w e H.
  - destruct bs; [|discriminate]. reflexivity.
  - destruct bs as [|x [|y bs]]; cbn [length] in H; try lia. cbn [app drawn]. rewrite IH by (cbn [length] in *; lia).
    rewrite <- !app_assoc.  rewrite !last_shift. reflexivity.
Qed.
Lemma sorted_snoc : forall l x, StronglySorted le l -> last l 0 <= x -> StronglySorted le (l ++ [x]).
Proof.
  induction l as [|a l IH]; intros x H L; cbn [app].
  - repeat constructor.
  - apply StronglySorted_inv in H. destruct H as (H1 & H2). constructor.
    + apply IH; auto. destruct l; [cbn; lia|exact L].
    + apply Forall_app. split; auto. constructor; auto.
      destruct l as [|b l]; [exact L|]. rewrite Forall_forall in H2. apply Nat.le_trans with (last (b :: l) 0); [|exact L].
      apply H2. destruct (exists_last (l := b :: l)) as (q & y & E); [discriminate|]. rewrite E, last_app1. apply in_or_app. right. left. auto.
Qed.
Lemma drawn_length : forall mine bs a w, StronglySorted le (a :: bs) -> (length bs = 2 * length mine \/ length bs = 2 * length mine + 1) ->
  length (drawn a mine bs w) = last bs a - a.
Proof.
  induction mine as [|m mine IH]; intros bs a w HS HL.
  - destruct bs as [|e [|f bs]]; cbn [length] in HL; try lia; cbn [drawn last]; [cbn; lia|]. rewrite repeat_length. auto.
  - destruct bs as [|b [|c bs]]; cbn [length] in HL; try lia. cbn [drawn]. rewrite !app_length, !repeat_length.
    apply StronglySorted_inv in HS. destruct HS as (HS & F1). apply StronglySorted_inv in HS. destruct HS as (HS & F2).
    rewrite IH; auto; [|lia]. inversion F1; subst. inversion F2; subst.
    assert (E : last (b :: c :: bs) a = last bs c).
    { rewrite !last_shift. reflexivity. }
    rewrite E. assert (c <= last bs c).
    { destruct bs as [|z bs]; [auto|]. apply StronglySorted_inv in HS. destruct HS as (_ & F3). rewrite Forall_forall in F3. apply F3.
      destruct (exists_last (l := z :: bs)) as (q & y & E'); [discriminate|]. rewrite E', last_app1. apply in_or_app. right. left. auto. }
    lia.
Qed.
(** The two feet complement each other. *)
Lemma drawn_compl : forall mine bs a w, Forall2 complementary (drawn a mine bs w) (drawn a (map negb mine) bs (negb w)).
Proof.
  assert (Rp : forall p q n, complementary p q -> Forall2 complementary (repeat p n) (repeat q n)) by (intros p q n H; induction n; constructor; auto).
  induction mine as [|m mine IH]; intros bs a w.
  - destruct bs as [|e [|f bs]]; cbn [drawn map]; try constructor. apply Rp. destruct w; unfold complementary; cbn; tauto.
  - destruct bs as [|b [|c bs]]; cbn [drawn map]; try constructor.
    + apply Rp. destruct w; unfold complementary; cbn; tauto.
    + apply Forall2_app; [apply Rp; destruct m; unfold complementary; cbn; tauto|]. apply Forall2_app; [apply Rp; destruct m; unfold complementary; cbn; tauto|]. apply IH.
Qed.

Section Any.
Variable N : Type.
Variable A : arith N.
Variable Sv : field -> N.
Variable pause : bool.

Record inv (done : list (nstep N)) (s : ncp N) : Prop := MkInv {
  iv_hd : exists bs, x_shift s = 0 :: bs /\ length bs = 2 * length done /\ last bs 0 = x_cur s
          /\ x_lp s = drawn 0 (map n_left done) bs true /\ x_rp s = drawn 0 (map negb (map n_left done)) bs true;
  iv_sorted : StronglySorted le (x_shift s);
  iv_last : x_lastLeft s = match rev done with [] => None | t :: _ => Some (n_left t) end
}.
Lemma step_inv : forall dT nl nr sf k nx done s s', inv done s -> n_step1 A Sv pause dT nl nr sf k nx s = Ok s' -> inv (done ++ [nx]) s'.
Proof.
  intros dT nl nr sf k nx done s s' [(bs & I1 & I2 & I3 & I4 & I5) I6 I7] H. unfold n_step1 in H.
  destruct (below0 A _); [discriminate|].
  destruct (a_round A (a_div A (a_sub A (n_time nx) (x_prev s)) dT)) as [stp| |]; cbn [rbind] in H; try discriminate.
  destruct (a_round A (a_div A (n_switch A Sv pause (Nat.eqb k 2) sf (a_sub A (n_time nx) (x_prev s))) dT)) as [sw| |]; cbn [rbind] in H; try discriminate.
  destruct (sub_size stp sw) as [swing| |] eqn:Esw; cbn [rbind] in H; try discriminate.
  destruct (negb (n_left nx && Nat.eqb (n_idx nx) (x_li s)) && negb (negb (n_left nx) && Nat.eqb (n_idx nx) (x_ri s))) eqn:Ef; [discriminate|].
  assert (El : n_left nx && Nat.eqb (n_idx nx) (x_li s) = n_left nx).
  { destruct (n_left nx); auto. cbn [negb andb] in *. destruct (Nat.eqb (n_idx nx) (x_li s)); auto. }
  rewrite El in H.
  match type of H with (do mp <- ?e; _) = _ => destruct e as [mp| |]; cbn [rbind] in H; try discriminate end.
  injection H as <-. cbn [x_shift x_cur x_lp x_rp x_lastLeft]. constructor; cbn [x_shift x_cur x_lp x_rp x_lastLeft].
  - exists (bs ++ [x_cur s + sw; x_cur s + sw + swing]). rewrite I1. split; [reflexivity|].
    split; [rewrite !app_length, I2; cbn [length]; lia|].
    split; [replace (bs ++ [x_cur s + sw; x_cur s + sw + swing]) with ((bs ++ [x_cur s + sw]) ++ [x_cur s + sw + swing]) by (rewrite <- app_assoc; reflexivity); apply last_app1|].
    rewrite !map_app. cbn [map]. rewrite !drawn_step by (rewrite ?map_length; auto). rewrite I3, I4, I5.
    replace (x_cur s + sw - x_cur s) with sw by lia. replace (x_cur s + sw + swing - (x_cur s + sw)) with swing by lia.
    destruct (n_left nx); split; reflexivity.
  - replace (x_shift s ++ [x_cur s + sw; x_cur s + sw + swing]) with ((x_shift s ++ [x_cur s + sw]) ++ [x_cur s + sw + swing]) by (rewrite <- app_assoc; reflexivity).
    assert (L : last (x_shift s) 0 = x_cur s). { rewrite I1, <- I3. destruct bs; reflexivity. }
    apply sorted_snoc; [apply sorted_snoc; auto; lia|]. rewrite last_app1. lia.
  - rewrite rev_app_distr. reflexivity.
Qed.
Lemma loop_inv : forall dT nl nr sf l k done s s', inv done s -> n_loop A Sv pause dT nl nr sf k l s = Ok s' -> inv (done ++ l) s'.
Proof.
  intros dT nl nr sf. induction l as [|nx l IH]; intros k done s s' I H; cbn [n_loop] in H.
  - injection H as <-. rewrite app_nil_r. auto.
  - destruct (n_step1 A Sv pause dT nl nr sf k nx s) as [s1| |] eqn:E; cbn [rbind] in H; try discriminate.
    replace (done ++ nx :: l) with ((done ++ [nx]) ++ l) by (rewrite <- app_assoc; reflexivity). eapply IH; [|exact H]. eapply step_inv; eauto.
Qed.
Definition planned_of (ord : list (nstep N)) : list (nstep N) := tl (tl ord).
Lemma create_shape : forall dT init nl nr fl fr ord ph, n_create A Sv pause dT init nl nr fl fr ord = Ok ph ->
  2 <= length ord /\ exists bs, ph_shift ph = 0 :: bs /\ length bs = 2 * length ord - 3 /\ (2 < length ord -> 1 <= last bs 0) /\ StronglySorted le (ph_shift ph)
  /\ ph_left ph = drawn 0 (map n_left (planned_of ord)) bs (a_lt A fr fl)
  /\ ph_right ph = drawn 0 (map negb (map n_left (planned_of ord))) bs (negb (a_lt A fr fl)).
Proof.
  intros dT init nl nr fl fr ord ph H. unfold n_create in H. destruct ord as [|a [|b [|c l]]]; try discriminate.
  - destruct (a_round A (a_div A (Sv q_terminal) dT)) as [es| |]; cbn [rbind] in H; try discriminate. injection H as <-. split; [cbn; lia|].
    exists [es]. cbn [ph_shift ph_left ph_right length planned_of tl map drawn]. rewrite Nat.sub_0_r. split; auto. split; auto. split; [lia|]. split.
    + repeat constructor. lia.
    + destruct (a_lt A fr fl); split; reflexivity.
  - destruct (a_ceil A _) as [z| |]; cbn [rbind] in H; try discriminate.
    destruct (n_loop A Sv pause dT nl nr (a_eq A fl fr) 2 (c :: l) _) as [s| |] eqn:E; cbn [rbind] in H; try discriminate.
    destruct (a_round A (a_div A (Sv q_terminal) dT)) as [es| |]; cbn [rbind] in H; try discriminate.
    destruct (sub_size (x_cur s + es) 1) as [ml| |] eqn:Em; cbn [rbind] in H; try discriminate. injection H as <-.
    apply (loop_inv dT nl nr (a_eq A fl fr) (c :: l) 2 []) in E.
    2:{ constructor; cbn [x_shift x_lastLeft rev].
        - exists []. repeat split; auto.
        - repeat constructor.
        - auto. }
    destruct E as [(bs & I1 & I2 & I3 & I4 & I5) I6 I7]. cbn [app] in *. split; [cbn; lia|].
    exists (bs ++ [x_cur s + es]). cbn [ph_shift ph_left ph_right planned_of tl]. rewrite I1. split; auto.
    split; [rewrite app_length, I2; cbn [length]; lia|].
    split. { intros _. rewrite last_app1. unfold sub_size in Em. destruct (Nat.leb_spec 1 (x_cur s + es)); [auto|discriminate]. }
    split. { rewrite <- I1. apply sorted_snoc; auto. rewrite I1. destruct bs as [|z0 bs]; [cbn in I3 |- *; lia|].
             change (last (0 :: z0 :: bs) 0) with (last (z0 :: bs) 0). rewrite I3. lia. }
    assert (W : forall w, last (map n_left (c :: l)) w = match x_lastLeft s with Some b => b | None => true end
      /\ last (map negb (map n_left (c :: l))) w = negb (match x_lastLeft s with Some b => b | None => true end)).
    { intros w. rewrite I7. destruct (exists_last (l := c :: l)) as (q & y & Eq); [discriminate|]. rewrite Eq, rev_app_distr, !map_app. cbn [rev app map].
      rewrite !last_last. auto. }
    assert (D0 : forall ms w w', ms <> [] -> length bs = 2 * length ms -> drawn 0 ms bs w = drawn 0 ms bs w').
    { intros ms w w' Hm Hb. destruct ms as [|m ms]; [congruence|]. destruct bs as [|x [|y bs]]; cbn [length] in Hb; try lia. reflexivity. }
    rewrite !drawn_end by (rewrite ?map_length; auto). destruct (W (a_lt A fr fl)) as (W1 & _). destruct (W (negb (a_lt A fr fl))) as (_ & W2).
    rewrite W1, W2, I3, I4, I5. replace (x_cur s + es - x_cur s) with es by lia.
    rewrite (D0 (map n_left (c :: l)) true (a_lt A fr fl)) by (try discriminate; rewrite map_length; auto).
    rewrite (D0 (map negb (map n_left (c :: l))) true (negb (a_lt A fr fl))) by (try discriminate; rewrite !map_length; auto).
    destruct (match x_lastLeft s with Some b => b | None => true end); split; reflexivity.
Qed.
Lemma order_perm : forall srt ord, n_order A srt = Ok ord -> Permutation ord srt.
Proof.
  intros srt ord H. unfold n_order in H. destruct srt as [|a [|b l]]; [injection H as <-; auto|discriminate|].
  destruct (n_adjacent A l); [discriminate|]. destruct l as [|c l]; [injection H as <-; auto|].
  destruct (_ && _); injection H as <-; auto. apply perm_swap.
Qed.
Lemma generate_shape : forall left right init dT srt ord ph, n_generate A Sv pause left right init dT srt = Ok (ord, ph) ->
  Permutation ord srt /\ 2 <= length ord /\ exists bs w, ph_shift ph = 0 :: bs /\ length bs = 2 * length ord - 3 /\ (2 < length ord -> 1 <= last bs 0) /\ StronglySorted le (ph_shift ph)
  /\ ph_left ph = drawn 0 (map n_left (planned_of ord)) bs w
  /\ ph_right ph = drawn 0 (map negb (map n_left (planned_of ord))) bs (negb w).
Proof.
  intros left right init dT srt ord ph H. unfold n_generate in H.
  destruct (Nat.ltb _ _); [discriminate|]. destruct (Nat.ltb _ _); [discriminate|]. destruct (String.eqb _ _); [discriminate|].
  destruct (atmost0 A dT); [discriminate|].
  destruct (nf_steps left) as [|(tl & x) l]; [discriminate|]. destruct (nf_steps right) as [|(tr & y) r]; [discriminate|].
  destruct (a_lt A init _); [discriminate|]. destruct (n_order A srt) as [o| |] eqn:E; cbn [rbind] in H; try discriminate.
  destruct (n_create _ _ _ _ _ _ _ _ _ _) as [p| |] eqn:Ec; cbn [rbind] in H; try discriminate. injection H as <- <-.
  split; [apply order_perm; auto|]. destruct (create_shape _ _ _ _ _ _ _ _ Ec) as (L & bs & Q). split; auto. exists bs. eauto.
Qed.
End Any.
