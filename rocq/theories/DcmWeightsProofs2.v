(** The loop over the phases, for an arbitrary arithmetic. *)
From Coq Require Import String ZArith List Bool Lia Sorting.Sorted Sorting.Permutation.
From Verif Require Import Prelude Rounding GenPhases GenSpec Doubles DoublesGen AnyArithSpec AnyArithProofs FeetTimesSpec FeetTimesProofs2 FeetTimesProofs3
  CtrlDoubles DcmWeights DcmWeightsSpec.
Import ListNotations.

(** The phase does not change between two boundaries. *)
Fixpoint pieces (ph : list phase) (i : nat) (ends : list nat) : Prop :=
  match ends with
  | [] => True
  | e :: r => (forall k, i <= k < e -> nth_error ph k = nth_error ph i) /\ pieces ph e r
  end.
Lemma nth_repeat : forall (T : Type) (x : T) n k, k < n -> nth_error (repeat x n) k = Some x.
Proof. induction n as [|n IH]; intros k H; [lia|]. destruct k; cbn; auto. apply IH. lia. Qed.
Lemma nth_part : forall (T : Type) n i k (l : list T), k < n -> nth_error (firstn n (skipn i l)) k = nth_error l (i + k).
Proof.
  intros T n i k l H. transitivity (nth_error (skipn i l) k).
  - generalize (skipn i l) as m. revert k H. induction n as [|n IH]; intros k H m; [lia|]. destruct m, k; cbn; auto. apply IH. lia.
  - revert i. induction l as [|x l IH]; intros i; [destruct i; destruct k; cbn; auto; destruct (i + _); auto|]. destruct i; cbn; auto.
Qed.
Lemma drawn_pieces : forall mine bs a w pre, length bs = 2 * length mine + 1 -> StronglySorted lt (a :: bs) -> length pre = a ->
  pieces (pre ++ drawn a mine bs w) a bs.
Proof.
  induction mine as [|m mine IH]; intros bs a w pre Hl Hs Hp.
  - destruct bs as [|e [|? ?]]; cbn in Hl; try lia. cbn [pieces drawn]. split; auto. intros k Hk.
    rewrite !nth_error_app2 by lia. rewrite !nth_repeat by lia. reflexivity.
  - destruct bs as [|b [|c r]]; cbn in Hl; try lia. apply StronglySorted_inv in Hs. destruct Hs as (Hs & F). inversion_clear F as [|? ? Hab _].
    apply StronglySorted_inv in Hs. destruct Hs as (Hs & F). inversion_clear F as [|? ? Hbc _]. cbn [drawn].
    set (p1 := repeat (if m then SwitchOut else SwitchIn) (b - a)). set (p2 := repeat (if m then Swing else Stance) (c - b)).
    assert (L1 : length p1 = b - a) by apply repeat_length. assert (L2 : length p2 = c - b) by apply repeat_length.
    specialize (IH r c m (pre ++ p1 ++ p2) ltac:(lia) Hs ltac:(rewrite !app_length; lia)). rewrite <- !app_assoc in IH.
    cbn [pieces]. split; [|split; [|exact IH]]; intros k Hk.
    + rewrite !(nth_error_app2 pre) by lia. rewrite !nth_error_app1 by lia. unfold p1. rewrite !nth_repeat by lia. reflexivity.
    + rewrite !(nth_error_app2 pre) by lia. rewrite !(nth_error_app2 p1) by lia. rewrite !nth_error_app1 by lia. unfold p2. rewrite !nth_repeat by lia. reflexivity.
Qed.

Definition stances (ph : list phase) (shift : list nat) : nat :=
  length (filter (fun i => match nth_error ph i with Some Stance => true | _ => false end) (removelast shift)).
Lemma compl_nth : forall l r i, Forall2 complementary l r -> (nth_error l i = Some Stance <-> nth_error r i = Some Swing).
Proof.
  induction l as [|a l IH]; intros r i H; inversion H as [|? b ? r' C F]; subst; [destruct i; split; discriminate|]. destruct i; cbn; auto.
  split; intros E; injection E as ->; destruct C as [(X & Y)|[(X & Y)|[(X & Y)|(X & Y)]]]; try discriminate; subst; auto.
Qed.
Lemma compl_swings : forall l r shift, Forall2 complementary l r -> stances l shift = swings r shift.
Proof.
  intros l r shift H. unfold stances, swings. f_equal. apply filter_ext. intros i. pose proof (compl_nth _ _ i H) as (A & B).
  destruct (nth_error l i) as [[]|]; destruct (nth_error r i) as [[]|]; auto; try (specialize (A eq_refl); discriminate); specialize (B eq_refl); discriminate.
Qed.

Section Any.
Variable N : Type.
Variable A : arith N.
Variable M : maths N.
Variables offL offR : N * N.
Variable lph : list phase.
Variable zs : list (N * N).
Hypothesis Lz : length zs = length lph.
Definition paired (sl sr : dpose N) (z w : N * N) : Prop := w = w_pair A M (w_foot A M offL sl) (w_foot A M offR sr) z.
Definition follow (i : nat) (ends : list nat) (ls rs : list (dpose N)) (ws : list (N * N)) : Prop :=
  length ws = length lph - i /\
  forall j a b k p w, nth_error (i :: ends) j = Some a -> nth_error (i :: ends) (S j) = Some b -> a <= k < b ->
  nth_error lph k = Some p -> nth_error ws (k - i) = Some w ->
  match p with
  | Stance => w = (c1 A, c0 A)
  | Swing => w = (c0 A, c1 A)
  | _ => exists sl sr z, nth_error ls (swings lph (firstn (S j) (i :: ends))) = Some sl
           /\ nth_error rs (stances lph (firstn (S j) (i :: ends))) = Some sr /\ nth_error zs k = Some z /\ paired sl sr z w
  end.
Lemma swings_cons : forall i e r, swings lph (i :: e :: r) = (match nth_error lph i with Some Swing => 1 | _ => 0 end) + swings lph (e :: r).
Proof. intros i e r. unfold swings. cbn [removelast filter]. destruct (nth_error lph i) as [[]|]; reflexivity. Qed.
Lemma stances_cons : forall i e r, stances lph (i :: e :: r) = (match nth_error lph i with Some Stance => 1 | _ => 0 end) + stances lph (e :: r).
Proof. intros i e r. unfold stances. cbn [removelast filter]. destruct (nth_error lph i) as [[]|]; reflexivity. Qed.
Lemma follow_cons : forall i e ends p ls rs ls' rs' piece rest, i < e -> e <= length lph -> StronglySorted lt (i :: e :: ends) ->
  nth_error lph i = Some p -> (forall k, i <= k < e -> nth_error lph k = nth_error lph i) -> length piece = e - i ->
  match p with Swing => exists s, ls = s :: ls' /\ rs = rs' | Stance => ls = ls' /\ exists s, rs = s :: rs' | _ => ls = ls' /\ rs = rs' end ->
  (forall k w, i <= k < e -> nth_error piece (k - i) = Some w -> match p with
    | Stance => w = (c1 A, c0 A) | Swing => w = (c0 A, c1 A)
    | _ => exists sl sr z, nth_error ls 0 = Some sl /\ nth_error rs 0 = Some sr /\ nth_error zs k = Some z /\ paired sl sr z w end) ->
  follow e ends ls' rs' rest -> follow i (e :: ends) ls rs (piece ++ rest).
Proof.
  intros i e ends p ls rs ls' rs' piece rest Hie He Hs Ep Hc Lp St Hp (Lr & Hr). split; [rewrite app_length, Lp, Lr; lia|].
  intros [|j] a b k p' w Ea Eb Hk Ek Ew.
  - cbn in Ea, Eb. injection Ea as <-. injection Eb as <-. rewrite (Hc k Hk), Ep in Ek. injection Ek as <-. rewrite nth_error_app1 in Ew by lia.
    specialize (Hp k w Hk Ew). destruct p; auto.
  - change (nth_error (e :: ends) j = Some a) in Ea. change (nth_error (e :: ends) (S j) = Some b) in Eb.
    assert (Ge : e <= a). { apply StronglySorted_inv in Hs. destruct Hs as (Hs & _). apply StronglySorted_inv in Hs. destruct Hs as (_ & F). rewrite Forall_forall in F.
      destruct j as [|j]; cbn in Ea; [injection Ea as <-; lia|]. apply nth_error_In in Ea. apply F in Ea. lia. }
    rewrite nth_error_app2 in Ew by lia. rewrite Lp in Ew. replace (k - i - (e - i)) with (k - e) in Ew by lia.
    specialize (Hr j a b k p' w Ea Eb Hk Ek Ew). change (firstn (S (S j)) (i :: e :: ends)) with (i :: e :: firstn j ends). change (firstn (S j) (e :: ends)) with (e :: firstn j ends) in Hr.
    rewrite swings_cons, stances_cons, Ep. destruct p' eqn:Ep'; auto; destruct Hr as (sl & sr & z & R1 & R2 & R3 & R4); exists sl, sr, z;
    destruct p; solve [destruct St as (s & -> & ->); cbn [Nat.add nth_error]; auto|destruct St as (-> & s & ->); cbn [Nat.add nth_error]; auto|destruct St as (-> & ->); cbn [Nat.add nth_error]; auto].
Qed.
Lemma loop_ok : forall ends i ls rs, StronglySorted lt (i :: ends) -> last (i :: ends) 0 = length lph -> pieces lph i ends ->
  swings lph (i :: ends) < length ls -> stances lph (i :: ends) < length rs ->
  exists ws, w_loop A M offL offR lph zs ends i ls rs = Ok ws /\ follow i ends ls rs ws.
Proof.
  induction ends as [|e ends IH]; intros i ls rs Hs Hl Hpc HL HR.
  { cbn in Hl. exists []. split; auto. split; [cbn; lia|]. intros j a b k p s _ _ _ _ E. destruct (k - i); discriminate. }
  pose proof Hs as Hs0. apply StronglySorted_inv in Hs. destruct Hs as (Hs & F). inversion F as [|? ? Hie F2]; subst. assert (Hl2 : last (e :: ends) 0 = length lph) by (destruct ends; exact Hl).
  pose proof (sorted_last ends e Hs) as Hle. rewrite Hl2 in Hle. destruct Hpc as (Hc & Hpc).
  destruct (nth_error lph i) as [p|] eqn:Ep; [|apply nth_error_None in Ep; lia].
  rewrite swings_cons, Ep in HL. rewrite stances_cons, Ep in HR. cbn [w_loop]. rewrite Ep. rewrite Lz. replace (Nat.max i e) with e by lia. destruct (Nat.ltb_spec (length lph) e); [lia|].
  assert (Fr : forall k w f, i <= k < e -> nth_error (map f (firstn (e - i) (skipn i zs))) (k - i) = Some w -> exists z, nth_error zs k = Some z /\ w = f z :> N * N).
  { intros k w f Hk E. rewrite nth_error_map in E. destruct (nth_error (firstn (e - i) (skipn i zs)) (k - i)) as [z|] eqn:Z; [|discriminate]. injection E as <-. exists z. split; auto.
    rewrite nth_part in Z by lia. replace (i + (k - i)) with k in Z by lia. exact Z. }
  assert (Lm : forall f : N * N -> N * N, length (map f (firstn (e - i) (skipn i zs))) = e - i) by (intros f; rewrite map_length, firstn_length, skipn_length; lia).
  destruct ls as [|sl ls]; [cbn in HL; lia|]. destruct rs as [|sr rs]; [cbn in HR; lia|].
  destruct p.
  - destruct rs as [|sr2 rs]; [cbn in HR; lia|]. destruct (IH e (sl :: ls) (sr2 :: rs) Hs Hl2 Hpc ltac:(cbn in *; lia) ltac:(cbn in *; lia)) as (ws & Ew & Fw). rewrite Ew. cbn [rbind]. eexists. split; [reflexivity|].
    apply (follow_cons _ _ _ Stance _ _ (sl :: ls) (sr2 :: rs)); auto; [intros k Hk; rewrite (Hc k Hk); auto|apply repeat_length|eauto|]. intros k w Hk E. rewrite nth_repeat in E by lia. congruence.
  - destruct (IH e (sl :: ls) (sr :: rs) Hs Hl2 Hpc ltac:(cbn in *; lia) ltac:(cbn in *; lia)) as (ws & Ew & Fw). rewrite Ew. cbn [rbind]. eexists. split; [reflexivity|].
    apply (follow_cons _ _ _ SwitchIn _ _ (sl :: ls) (sr :: rs)); auto; [intros k Hk; rewrite (Hc k Hk); auto|]. intros k w Hk E. destruct (Fr k w _ Hk E) as (z & Z1 & Z2). exists sl, sr, z. cbn. auto.
  - destruct (IH e (sl :: ls) (sr :: rs) Hs Hl2 Hpc ltac:(cbn in *; lia) ltac:(cbn in *; lia)) as (ws & Ew & Fw). rewrite Ew. cbn [rbind]. eexists. split; [reflexivity|].
    apply (follow_cons _ _ _ SwitchOut _ _ (sl :: ls) (sr :: rs)); auto; [intros k Hk; rewrite (Hc k Hk); auto|]. intros k w Hk E. destruct (Fr k w _ Hk E) as (z & Z1 & Z2). exists sl, sr, z. cbn. auto.
  - destruct ls as [|sl2 ls]; [cbn in HL; lia|]. destruct (IH e (sl2 :: ls) (sr :: rs) Hs Hl2 Hpc ltac:(cbn in *; lia) ltac:(cbn in *; lia)) as (ws & Ew & Fw). rewrite Ew. cbn [rbind]. eexists. split; [reflexivity|].
    apply (follow_cons _ _ _ Swing _ _ (sl2 :: ls) (sr :: rs)); auto; [intros k Hk; rewrite (Hc k Hk); auto|apply repeat_length|eauto|]. intros k w Hk E. rewrite nth_repeat in E by lia. congruence.
Qed.
(** Everything in the result is one of three kinds. *)
Lemma loop_kinds : forall ends i ls rs ws w, w_loop A M offL offR lph zs ends i ls rs = Ok ws -> In w ws ->
  w = (c1 A, c0 A) \/ w = (c0 A, c1 A) \/ exists zl zr z, w = w_pair A M zl zr z.
Proof.
  induction ends as [|e ends IH]; intros i ls rs ws w H Hw; cbn [w_loop] in H; [injection H as <-; destruct Hw|].
  destruct (nth_error lph i) as [[]|]; [| | | |discriminate].
  - destruct rs as [|sr [|sr2 rs]]; [destruct ls; discriminate|destruct ls; destruct (Nat.ltb _ _) in H; discriminate|].
    destruct (Nat.ltb _ _) in H; [destruct ls; discriminate|].
    destruct ls as [|x0 l0]; destruct (w_loop _ _ _ _ _ _ _ _ _ _) as [rest| |] eqn:E in H; try discriminate; cbn [rbind] in H; injection H as <-; apply in_app_or in Hw; (destruct Hw as [Hw|Hw]; [apply repeat_spec in Hw; auto|eauto]).
  - destruct ls as [|sl ls]; try discriminate. destruct rs as [|sr rs]; try discriminate. destruct (Nat.ltb _ _); [discriminate|].
    destruct (w_loop _ _ _ _ _ _ _ _ _ _) as [rest| |] eqn:E; try discriminate. cbn [rbind] in H. injection H as <-. apply in_app_or in Hw. destruct Hw as [Hw|Hw]; [|eauto].
    apply in_map_iff in Hw. destruct Hw as (z & <- & _). eauto 6.
  - destruct ls as [|sl ls]; try discriminate. destruct rs as [|sr rs]; try discriminate. destruct (Nat.ltb _ _); [discriminate|].
    destruct (w_loop _ _ _ _ _ _ _ _ _ _) as [rest| |] eqn:E; try discriminate. cbn [rbind] in H. injection H as <-. apply in_app_or in Hw. destruct Hw as [Hw|Hw]; [|eauto].
    apply in_map_iff in Hw. destruct Hw as (z & <- & _). eauto 6.
  - destruct ls as [|sl [|sl2 ls]]; [destruct rs; discriminate|destruct rs; destruct (Nat.ltb _ _) in H; discriminate|]. destruct (Nat.ltb _ _) in H; [destruct rs; discriminate|].
    destruct rs as [|x0 l0]; destruct (w_loop _ _ _ _ _ _ _ _ _ _) as [rest| |] eqn:E in H; try discriminate; cbn [rbind] in H; injection H as <-; apply in_app_or in Hw; (destruct Hw as [Hw|Hw]; [apply repeat_spec in Hw; auto|eauto]).
Qed.
End Any.

Theorem weights_ok : forall (N : Type) (A : arith N) (M : maths N) offL offR s pause left right init dT srt ord ph zs ls rs,
  n_generate A s pause left right init dT srt = Ok (ord, ph) -> Permutation srt (n_all (nf_steps left) (nf_steps right)) -> StronglySorted lt (ph_shift ph) ->
  length zs = length (ph_left ph) -> length ls = length (nf_steps left) -> length rs = length (nf_steps right) ->
  exists ws, w_compute A M offL offR ph zs ls rs = Ok ws /\ follows (c1 A) (c0 A) (paired N A M offL offR) ph zs ls rs ws.
Proof.
  intros N A M offL offR s pause left right init dT srt ord ph zs ls rs H Hp Hs Lz L1 L2.
  pose proof (generate_swings N A s pause left right init dT srt ord ph H Hp Hs) as (SL & SR).
  destruct (generate_shape _ _ _ _ _ _ _ _ _ _ _ H) as (_ & LO & bs & w & E1 & E2 & _ & S4 & E3 & E4).
  assert (LM : length (map n_left (planned_of N ord)) = length ord - 2) by (rewrite map_length; unfold planned_of; destruct ord as [|? [|? ?]]; cbn [tl length] in *; lia).
  assert (LL : length (ph_left ph) = last (ph_shift ph) 0).
  { rewrite E3, drawn_length; [|rewrite <- E1; exact S4|right; rewrite LM, E2; lia]. rewrite E1, last_shift. lia. }
  assert (CP : Forall2 complementary (ph_left ph) (ph_right ph)) by (rewrite E3, E4; apply drawn_compl).
  unfold w_compute. rewrite E1 in *. cbn [tl].
  destruct (loop_ok N A M offL offR (ph_left ph) zs Lz bs 0 ls rs) as (ws & Ew & Lw & Fw); auto.
  - rewrite E3. apply (drawn_pieces _ bs 0 w []); auto. rewrite LM. lia.
  - rewrite L1. exact SL.
  - rewrite L2, (compl_swings _ _ _ CP). exact SR.
  - exists ws. split; auto. unfold follows. rewrite E1. split; [lia|]. intros j a b k p v Ea Eb Hk Ek Ev. specialize (Fw j a b k p v Ea Eb Hk Ek). rewrite Nat.sub_0_r in Fw. specialize (Fw Ev).
    rewrite <- (compl_swings _ _ _ CP). exact Fw.
Qed.
