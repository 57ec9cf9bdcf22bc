(** C52: CoM height. *)
From Coq Require Import String Reals Lra Lia ZArith List Bool Sorting.Sorted Sorting.Permutation.
From Verif Require Import Prelude EvalTac Rounding FootPrint GenPhases GenSpec GenProofs GenProofs2 GenProofs3 GenProofs4
  Properties_Generator FeetTraj FeetSpec FeetProofs FeetProofs2 FeetProofs3 Properties_Feet CoMHeight CoMHeightSpec CoMHeightProofs.
Import ListNotations.
Open Scope R_scope.

(** Settings reached by any history: the stance height is never below the ground. *)
Theorem C52_settings : forall ops nom delta, let c := h_history ops in
  (snd (h_set c nom delta) = true <-> 0 <= nom /\ 0 <= nom + delta)
  /\ (snd (h_set c nom delta) = true -> fst (h_set c nom delta) = MkH nom delta)
  /\ (snd (h_set c nom delta) = false -> fst (h_set c nom delta) = c)
  /\ (0 <= h_nom c -> 0 <= h_nom c + h_delta c).
Proof.
  intros ops nom delta c. pose proof (h_history_ok ops) as [_ K]. unfold h_set.
  destruct (Rltb nom 0) eqn:E1; [apply Rltb_true in E1|apply Rltb_false in E1];
  try (destruct (Rltb (nom + delta) 0) eqn:E2; [apply Rltb_true in E2|apply Rltb_false in E2]); cbn;
  (split; [split; [try discriminate; intros; lra|intros; try reflexivity; exfalso; lra]|]); (split; [try discriminate; auto|]); (split; [try discriminate; auto|]); exact K.
Qed.
Print Assumptions C52_settings.

(** C52, for walks without empty phases and any spline meeting the contract of the library.
    Missing for the full C52: walks with an empty phase, see [C52_empty_switch_refuted]. *)
Theorem C52_nominal_in_double_support_partial : forall ops hops left right init dT srt out spline,
  (forall T a m, 0 < T -> clamped T a m (spline T a m)) ->
  sort_result (fp_steps left) (fp_steps right) srt ->
  generate_phases (settings_after ops) left right init dT srt = Ok out -> no_empty_phase (go_ph out) ->
  let c := h_history hops in let ph := go_ph out in
  0 <= h_nom c ->
  exists H, height_compute spline c dT (ph_left ph) (ph_shift ph) = Ok H /\ length H = length (ph_left ph)
  /\ forall i p, nth_error (ph_left ph) i = Some p -> exists x, nth_error H i = Some x
     /\ (p = SwitchIn \/ p = SwitchOut -> x = MkPva (h_nom c) 0 0)
     /\ (p = Stance \/ p = Swing -> exists k f, let T := INR (bnd ph (2 * k + 2) - bnd ph (2 * k + 1)) * dT in
          (bnd ph (2 * k + 1) <= i < bnd ph (2 * k + 2))%nat
          /\ clamped T (h_nom c) (h_nom c + h_delta c) f
          /\ x = f (INR (i - bnd ph (2 * k + 1)) * dT)
          /\ p_p (f 0) = h_nom c /\ p_v (f 0) = 0 /\ p_p (f T) = h_nom c /\ p_v (f T) = 0
          /\ amid (h_nom c) (h_nom c + h_delta c) (p_p x) /\ 0 <= p_p x).
Proof.
  intros ops hops left right init dT srt out spline Hsp Hs H Hne c ph Hh.
  pose proof (h_history_ok hops) as [_ Htop]. fold c in Htop. specialize (Htop Hh).
  destruct (generate_inv _ _ _ _ _ _ _ (good_history ops) H) as (l0 & r0 & H1 & H2 & Hd & _ & _ & _ & _ & _ & P & _).
  fold ph in P. set (pl := planned (go_ord out)) in *. destruct P. pose proof (p_size true) as Sz. cbn [foot_phases] in Sz.
  assert (Hst : forall i, (i <= 2 * (0 + length pl))%nat -> (bnd ph i < bnd ph (S i))%nat).
  { intros i Hi. apply (Hne i); unfold bnd; apply nth_error_nth'; fold ph; lia. }
  assert (Dbl : forall j, (0 <= j <= 0 + length pl)%nat -> exists p, double_phase p /\ seg (ph_left ph) (bnd ph (2 * j)) (bnd ph (2 * j + 1)) p).
  { intros j Hj. destruct (Nat.eq_dec j (length pl)) as [->|N].
    - destruct p_end as [E1 E2]. destruct (last_mover (st_time l0) (st_time r0) pl); cbn [foot_phases negb] in *; [exists SwitchIn|exists SwitchOut]; split; auto; [left|right]; auto.
    - destruct (nth_error pl j) as [t|] eqn:Et; [|apply nth_error_None in Et; lia]. destruct (p_win j t Et) as (W1 & W2 & _).
      destruct (t_left t); cbn [foot_phases negb] in *; [exists SwitchOut|exists SwitchIn]; split; auto; [right|left]; auto. }
  assert (Sgl : forall j, (0 <= j < 0 + length pl)%nat -> exists p, single_phase p /\ seg (ph_left ph) (bnd ph (2 * j + 1)) (bnd ph (2 * j + 2)) p).
  { intros j Hj. destruct (nth_error pl j) as [t|] eqn:Et; [|apply nth_error_None in Et; lia]. destruct (p_win j t Et) as (_ & _ & W1 & W2).
    destruct (t_left t); cbn [foot_phases negb] in *; [exists Swing|exists Stance]; split; auto; [right|left]; auto. }
  exists (hmotion spline c dT (bnd ph) 0 (length pl)).
  assert (L : length (hmotion spline c dT (bnd ph) 0 (length pl)) = bnd ph (2 * length pl + 1)).
  { rewrite hmotion_length by auto. change (2 * 0)%nat with 0%nat. rewrite p_hd. cbn [Nat.add]. lia. }
  split.
  { unfold height_compute. rewrite rltb_f by lra.
    assert (Esh : tl (ph_shift ph) = map (bnd ph) (seq (2 * 0 + 1) (2 * length pl + 1))).
    { rewrite (shift_map (ph_shift ph)), p_len. replace (2 * length pl + 2)%nat with (S (2 * length pl + 1)) by lia. cbn [seq map tl]. reflexivity. }
    rewrite Esh. pose proof (hloop spline c dT Hd (ph_left ph) (bnd ph) (length pl) 0 Hst) as HL.
    replace (bnd ph (2 * 0)) with 0%nat in HL by (symmetry; exact p_hd). apply HL; auto. }
  split; [rewrite L, Sz; reflexivity|]. intros i p Hp.
  assert (Hi : (i < bnd ph (2 * length pl + 1))%nat) by (rewrite <- Sz; apply nth_error_Some; congruence).
  destruct (hmotion_at spline c dT (bnd ph) (length pl) 0 i p_mono) as [(j & J1 & J2 & J3)|(j & J1 & J2 & J3)].
  { change (2 * 0)%nat with 0%nat. rewrite p_hd. cbn [Nat.add]. lia. }
  - change (2 * 0)%nat with 0%nat in J3. rewrite p_hd, Nat.sub_0_r in J3. eexists. split; [exact J3|]. split; [reflexivity|].
    intros C. exfalso. destruct (Dbl j J1) as (q & Dq & Sq). rewrite (Sq i J2) in Hp. injection Hp as <-. destruct C as [C|C], Dq as [Dq|Dq]; congruence.
  - change (2 * 0)%nat with 0%nat in J3. rewrite p_hd, Nat.sub_0_r in J3. eexists. split; [exact J3|]. split.
    + intros C. exfalso. destruct (Sgl j J1) as (q & Dq & Sq). rewrite (Sq i J2) in Hp. injection Hp as <-. destruct C as [C|C], Dq as [Dq|Dq]; congruence.
    + intros _. set (T := INR (bnd ph (2 * j + 2) - bnd ph (2 * j + 1)) * dT). exists j, (spline T (h_nom c) (h_nom c + h_delta c)). cbv zeta. fold T.
      assert (HT : 0 < T). { unfold T. apply Rmult_lt_0_compat; auto. apply lt_0_INR. lia. }
      pose proof (Hsp T (h_nom c) (h_nom c + h_delta c) HT) as C. pose proof C as C0. destruct C as (_ & _ & _ & _ & _ & _ & _ & _ & _ & _ & K1 & K2 & _ & K3 & K4 & _).
      repeat (split; [assumption || reflexivity|]).
      assert (A : amid (h_nom c) (h_nom c + h_delta c) (p_p (spline T (h_nom c) (h_nom c + h_delta c) (INR (i - bnd ph (2 * j + 1)) * dT)))).
      { apply clamped_amid with T; auto. split; [apply Rmult_le_pos; [apply pos_INR|lra]|].
        unfold T. apply Rmult_le_compat_r; [lra|]. apply le_INR. lia. }
      split; [exact A|]. unfold amid in A. assert (0 <= Rmin (h_nom c) (h_nom c + h_delta c)) by (apply Rmin_glb; lra). lra.
Qed.
Print Assumptions C52_nominal_in_double_support_partial.

Example C52_example : (forall T a m, 0 < T -> clamped T a m (textbook T a m))
  /\ exists out, generate_phases (settings_after []) stepL stepR 0 1 stepSrt = Ok out /\ no_empty_phase (go_ph out)
  /\ h_history [(1/2, 1/100); (1/2, -1)] = MkH (1/2) (1/100)
  /\ nth_error (ph_left (go_ph out)) 1 = Some SwitchIn /\ nth_error (ph_left (go_ph out)) 3 = Some Stance.
Proof.
  split; [exact textbook_clamped|]. destruct step_run as (out & H & Ho & Hs & Hr & Hl). exists out. split; [exact H|]. split; [apply step_no_empty; exact Hs|].
  split; [cbn; unfold h_set; repeat (ev1; cbn); reflexivity|]. rewrite Hl. split; reflexivity.
Qed.

(** C52, finding: with a switch phase that rounds to zero samples the generation fails (the spline is asked to cover a
    zero interval) although the foot prints are fine. *)
Theorem C52_empty_switch_refuted : exists ops left right srt out,
  sort_result (fp_steps left) (fp_steps right) srt
  /\ generate_phases (settings_after ops) left right 0 1 srt = Ok out
  /\ forall spline hops, height_compute spline (h_history hops) 1 (ph_left (go_ph out)) (ph_shift (go_ph out)) = Fail.
Proof.
  destruct empty_run as (out & H & Ho & Hs & Hr & Hl). exists [GoSwitch (1/9)], stepL, stepR, stepSrt, out.
  split; [exact step_sort|]. split; [unfold settings_after; rewrite ratio_settings; exact H|].
  intros spline hops. rewrite Hs, Hl. unfold height_compute. destruct (Rltb _ _); [reflexivity|]. cbn [tl height_loop nth_error].
  unfold bump. cbn. rewrite reqb_t by lra. reflexivity.
Qed.
Print Assumptions C52_empty_switch_refuted.
