(** The number of swings of a foot in the phases is below the number of its steps, for an arbitrary arithmetic. *)
From Coq Require Import String ZArith List Bool Lia Sorting.Sorted Sorting.Permutation.
From Verif Require Import Prelude Rounding GenPhases GenSpec Doubles DoublesGen AnyArithSpec AnyArithProofs FeetTimesSpec.
Import ListNotations.

Definition trues (l : list bool) : nat := length (filter (fun b => b) l).
Lemma drawn_swings : forall mine bs a w pre, length bs = 2 * length mine + 1 -> StronglySorted lt (a :: bs) -> length pre = a ->
  swings (pre ++ drawn a mine bs w) (a :: bs) = trues mine.
Proof.
  induction mine as [|m mine IH]; intros bs a w pre Hl Hs Hp.
  - destruct bs as [|e [|? ?]]; cbn in Hl; try lia. unfold swings. cbn [removelast drawn filter]. apply StronglySorted_inv in Hs. destruct Hs as (_ & F). inversion_clear F.
    rewrite nth_error_app2 by lia. rewrite Hp, Nat.sub_diag. destruct (e - a) eqn:E; [lia|]. cbn [repeat nth_error]. destruct w; reflexivity.
  - destruct bs as [|b [|c r]]; cbn in Hl; try lia. apply StronglySorted_inv in Hs. destruct Hs as (Hs & F). inversion_clear F as [|? ? Hab _].
    apply StronglySorted_inv in Hs. destruct Hs as (Hs & F). inversion_clear F as [|? ? Hbc _]. cbn [drawn].
    set (p1 := repeat (if m then SwitchOut else SwitchIn) (b - a)). set (p2 := repeat (if m then Swing else Stance) (c - b)).
    assert (L1 : length p1 = b - a) by apply repeat_length. assert (L2 : length p2 = c - b) by apply repeat_length.
    specialize (IH r c m (pre ++ p1 ++ p2) ltac:(lia) Hs ltac:(rewrite !app_length; lia)). rewrite <- !app_assoc in IH.
    set (ph := pre ++ p1 ++ p2 ++ drawn c mine r m) in *.
    assert (Ea : nth_error ph a = Some (if m then SwitchOut else SwitchIn)).
    { unfold ph. rewrite nth_error_app2 by lia. rewrite Hp, Nat.sub_diag. rewrite nth_error_app1 by lia. unfold p1. destruct (b - a) eqn:E; [lia|]. reflexivity. }
    assert (Eb : nth_error ph b = Some (if m then Swing else Stance)).
    { unfold ph. rewrite nth_error_app2 by lia. rewrite nth_error_app2 by lia. rewrite nth_error_app1 by lia. replace (b - length pre - length p1) with 0 by lia. unfold p2. destruct (c - b) eqn:E; [lia|]. reflexivity. }
    unfold swings in *. change (removelast (a :: b :: c :: r)) with (a :: b :: removelast (c :: r)). cbn [filter]. rewrite Ea, Eb. unfold trues in *. cbn [filter]. destruct m; cbn [length]; rewrite IH; reflexivity.
Qed.

Section Any.
Variable N : Type.
Variable A : arith N.
Variable Sv : field -> N.
Variable pause : bool.
Definition lefts (l : list (nstep N)) : nat := trues (map n_left l).
Definition rights (l : list (nstep N)) : nat := trues (map negb (map n_left l)).
Lemma trues_app : forall a b, trues (a ++ b) = trues a + trues b.
Proof. intros. unfold trues. rewrite filter_app, app_length. reflexivity. Qed.
(** The steps of a foot are made in the order of their indices. *)
Lemma loop_index : forall dT nl nr sf l k s s', n_loop A Sv pause dT nl nr sf k l s = Ok s' ->
  (0 < lefts l -> exists x, In x l /\ n_left x = true /\ S (n_idx x) = x_li s + lefts l)
  /\ (0 < rights l -> exists x, In x l /\ n_left x = false /\ S (n_idx x) = x_ri s + rights l).
Proof.
  intros dT nl nr sf. induction l as [|nx l IH]; intros k s s' H; cbn [n_loop] in H.
  { unfold lefts, rights, trues. cbn. split; lia. }
  destruct (n_step1 A Sv pause dT nl nr sf k nx s) as [s1| |] eqn:E; cbn [rbind] in H; try discriminate. destruct (IH _ _ _ H) as (IL & IR).
  assert (St : if n_left nx then n_idx nx = x_li s /\ x_li s1 = S (x_li s) /\ x_ri s1 = x_ri s else n_idx nx = x_ri s /\ x_li s1 = x_li s /\ x_ri s1 = S (x_ri s)).
  { clear H IL IR. unfold n_step1 in E. destruct (below0 A _); [discriminate|].
    destruct (a_round A (a_div A (a_sub A (n_time nx) (x_prev s)) dT)) as [stp| |]; cbn [rbind] in E; try discriminate.
    destruct (a_round A (a_div A (n_switch A Sv pause (Nat.eqb k 2) sf (a_sub A (n_time nx) (x_prev s))) dT)) as [sw| |]; cbn [rbind] in E; try discriminate.
    destruct (sub_size stp sw) as [swing| |] eqn:Esw; cbn [rbind] in E; try discriminate.
    destruct (negb (n_left nx && Nat.eqb (n_idx nx) (x_li s)) && negb (negb (n_left nx) && Nat.eqb (n_idx nx) (x_ri s))) eqn:Ef; [discriminate|].
    match type of E with (do mp <- ?e; _) = _ => destruct e as [mp| |]; cbn [rbind] in E; try discriminate end.
    injection E as <-. cbn [x_li x_ri]. destruct (n_left nx); cbn [andb negb] in *.
    - destruct (Nat.eqb_spec (n_idx nx) (x_li s)); [auto|discriminate].
    - destruct (Nat.eqb_spec (n_idx nx) (x_ri s)); [auto|discriminate]. }
  assert (CL : lefts (nx :: l) = (if n_left nx then 1 else 0) + lefts l) by (unfold lefts, trues; cbn [map filter]; destruct (n_left nx); reflexivity).
  assert (CR : rights (nx :: l) = (if n_left nx then 0 else 1) + rights l) by (unfold rights, trues; cbn [map filter]; destruct (n_left nx); reflexivity).
  split; intros Hc.
  - destruct (Nat.eq_dec (lefts l) 0) as [Z|Z].
    + destruct (n_left nx) eqn:En; [|lia]. destruct St as (S1 & _). exists nx. split; [left; auto|]. split; auto. lia.
    + destruct IL as (x & X1 & X2 & X3); [lia|]. exists x. split; [right; auto|]. split; auto. destruct (n_left nx); destruct St as (S1 & S2 & S3); lia.
  - destruct (Nat.eq_dec (rights l) 0) as [Z|Z].
    + destruct (n_left nx) eqn:En; [lia|]. destruct St as (S1 & _). exists nx. split; [left; auto|]. split; auto. lia.
    + destruct IR as (x & X1 & X2 & X3); [lia|]. exists x. split; [right; auto|]. split; auto. destruct (n_left nx); destruct St as (S1 & S2 & S3); lia.
Qed.
Lemma tag_index : forall lf (l : list (N * string)) k x, In x (n_tag lf k l) -> n_left x = lf /\ k <= n_idx x < k + length l.
Proof.
  induction l as [|(t & m) l IH]; intros k x H; cbn in H; [contradiction|]. destruct H as [<-|H]; cbn; [split; auto; lia|]. destruct (IH _ _ H). split; auto. cbn in *. lia.
Qed.
Theorem generate_swings : forall left right init dT srt ord ph, n_generate A Sv pause left right init dT srt = Ok (ord, ph) ->
  Permutation srt (n_all (nf_steps left) (nf_steps right)) -> StronglySorted lt (ph_shift ph) ->
  swings (ph_left ph) (ph_shift ph) < length (nf_steps left) /\ swings (ph_right ph) (ph_shift ph) < length (nf_steps right).
Proof.
  intros left right init dT srt ord ph H Hp Hs. destruct (generate_shape _ _ _ _ _ _ _ _ _ _ _ H) as (P & L2 & bs & w & E1 & E2 & _ & _ & E3 & E4).
  assert (SL : swings (ph_left ph) (ph_shift ph) = lefts (planned_of N ord)).
  { rewrite E1 in *. rewrite E3. apply (drawn_swings _ bs 0 w []); auto. rewrite map_length. unfold planned_of. destruct ord as [|a [|b o]]; cbn [tl length] in *; lia. }
  assert (SR : swings (ph_right ph) (ph_shift ph) = rights (planned_of N ord)).
  { rewrite E1 in *. rewrite E4. apply (drawn_swings _ bs 0 (negb w) []); auto. rewrite !map_length. unfold planned_of. destruct ord as [|a [|b o]]; cbn [tl length] in *; lia. }
  rewrite SL, SR.
  assert (Idx : forall x, In x ord -> n_idx x < length (if n_left x then nf_steps left else nf_steps right)).
  { intros x Hx. assert (Hx' : In x (n_all (nf_steps left) (nf_steps right))) by (eapply Permutation_in; [exact Hp|]; eapply Permutation_in; [exact P|exact Hx]).
    apply in_app_or in Hx'. destruct Hx' as [Hx'|Hx']; apply tag_index in Hx'; destruct Hx' as (-> & Q); lia. }
  unfold n_generate in H. destruct (Nat.ltb_spec (length (nf_steps left)) 1) as [|G1]; [discriminate|]. destruct (Nat.ltb_spec (length (nf_steps right)) 1) as [|G2]; [discriminate|]. destruct (String.eqb _ _); [discriminate|].
  destruct (atmost0 A dT); [discriminate|].
  destruct (nf_steps left) as [|(tl & x) l] eqn:El; [discriminate|]. destruct (nf_steps right) as [|(tr & y) r] eqn:Er; [discriminate|].
  destruct (a_lt A init _); [discriminate|]. destruct (n_order A srt) as [o| |] eqn:E; cbn [rbind] in H; try discriminate.
  destruct (n_create _ _ _ _ _ _ _ _ _ _) as [p| |] eqn:Ec; cbn [rbind] in H; try discriminate. injection H as -> ->. clear E.
  unfold n_create in Ec. destruct ord as [|a [|b [|c o']]]; try discriminate.
  { unfold planned_of, lefts, rights, trues. cbn. lia. }
  destruct (a_ceil A _) as [z| |]; cbn [rbind] in Ec; try discriminate.
  destruct (n_loop A Sv pause dT _ _ (a_eq A tl tr) 2 (c :: o') _) as [st| |] eqn:En; cbn [rbind] in Ec; try discriminate. clear Ec.
  apply loop_index in En. cbn [x_li x_ri] in En. change (planned_of N (a :: b :: c :: o')) with (c :: o'). destruct En as (NL & NR). split.
  - destruct (Nat.eq_dec (lefts (c :: o')) 0); [lia|]. destruct NL as (q & Q1 & Q2 & Q3); [lia|]. specialize (Idx q ltac:(right; right; exact Q1)). rewrite Q2 in Idx. lia.
  - destruct (Nat.eq_dec (rights (c :: o')) 0); [lia|]. destruct NR as (q & Q1 & Q2 & Q3); [lia|]. specialize (Idx q ltac:(right; right; exact Q1)). rewrite Q2 in Idx. lia.
Qed.
End Any.
