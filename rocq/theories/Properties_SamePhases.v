(** C100: off the ties of the rounding to samples, the phases computed with doubles are those of exact arithmetic. *)
From Coq Require Import String Reals Lra Lia ZArith List Bool Sorting.Permutation.
From Flocq Require Import Core IEEE754.BinarySingleNaN.
From Verif Require Import Prelude Rounding FootPrint GenPhases GenSpec GenProofs GenProofs2 GenProofs4 RoundedGen RoundedGenSpec RoundedGenProofs2 RoundedGenProofs3 RoundedGenProofs4
  Doubles DoublesGen DoublesSpec DoublesProofs DoublesProofs3 DoublesProofs6 Properties_Generator Properties_Rounded Properties_Doubles SamePhasesSpec SamePhasesProofs.
Import ListNotations.
Open Scope R_scope.

(** How far from the ties: [n] steps, times bounded by [B]. *)
Definition margin (n : nat) (B : R) : R := (INR n + 17) * (bpow radix2 (-50) * B).

(** C100: every operation rounded, settings included; failures are the same, too. *)
Theorem C100_rounded : forall ops left right init dT srt B, List.Forall gop_b64 ops ->
  bpow radix2 (-900) <= dT <= B -> B <= bpow radix2 50 * dT -> Rabs init <= B ->
  let g := settings_after ops in let d := margin (length (planned srt)) B in
  g_endSwitch g <= B -> (forall t, In t (impacts srt) -> init <= t <= B) ->
  off_ties dT d (g_endSwitch g) ->
  (forall l r, hd_error (fp_steps left) = Some l -> hd_error (fp_steps right) = Some r ->
     settled g dT d (negb (Reqb (st_time l) (st_time r))) true init (impacts srt)) ->
  generate_phases_r b64 (settings64 ops) left right init dT srt = generate_phases g left right init dT srt.
Proof.
  intros ops left right init dT srt B Ho (D0 & D1) D2 Hi g d He Ht Hd Hs.
  destruct (order_steps srt) as [ord| |] eqn:Hr.
  2,3: unfold generate_phases_r, generate_phases; repeat match goal with |- (if ?b then _ else _) = _ => destruct b; [reflexivity|] end;
    destruct (fp_steps left); [reflexivity|]; destruct (fp_steps right); [reflexivity|]; destruct (Rltb init _); [reflexivity|]; rewrite Hr; reflexivity.
  pose proof (order_planned _ _ Hr) as Q. unfold impacts in *. rewrite <- Q in Ht, Hs. unfold d in *. rewrite <- Q in Hd, Hs.
  apply (generate_same g (settings64 ops) dT B (margin (length (planned ord)) B) (near_history ops) (good64 ops Ho) (good_history ops) D0 D1 D2 left right init srt ord); auto.
  - intros t Hin. apply Ht. apply (in_map (fun t => st_time (t_step t))). exact Hin.
  - unfold margin. rewrite u64_val. change (bpow radix2 (-50)) with (/ 1125899906842624). pose proof (pos_INR (length (planned ord))) as P.
    assert (0 < B) by (pose proof (bpow_gt_0 radix2 (-900)); lra). assert (0 <= INR (length (planned ord)) * B) by (apply Rmult_le_pos; lra). lra.
Qed.
Print Assumptions C100_rounded.

(** C100: the doubles of the program. *)
Theorem C100_doubles : forall l pause left right init dT srt B, List.Forall finite_args l ->
  in_scope (settings ieee l) left right init dT B ->
  (forall t, In t srt -> In t (n_all (nf_steps left) (nf_steps right))) ->
  let g := settings_after (gops (map (map_setter f2r) l) ++ [GoPauseActive pause]) in let d := margin (length (planned (map real_step srt))) B in
  (forall t, In t (impacts (map real_step srt)) -> f2r init <= t) ->
  off_ties (f2r dT) d (g_endSwitch g) ->
  (forall a b, hd_error (fp_steps (real_foot left)) = Some a -> hd_error (fp_steps (real_foot right)) = Some b ->
     settled g (f2r dT) d (negb (Reqb (st_time a) (st_time b))) true (f2r init) (impacts (map real_step srt))) ->
  match n_generate ieee (settings ieee l) pause left right init dT srt,
        generate_phases g (real_foot left) (real_foot right) (f2r init) (f2r dT) (map real_step srt) with
  | Ok (o, ph), Ok out => map (map_nstep f2r) o = map nstep_of (go_ord out) /\ ph = go_ph out
  | Fail, Fail => True
  | UB, UB => True
  | _, _ => False
  end.
Proof.
  intros l pause left right init dT srt B H Hi Hs g d Ht Hd Hse.
  destruct (C83_rounded_model l pause left right init dT srt B H Hi Hs) as (Hg & E). set (ops := gops (map (map_setter f2r) l) ++ [GoPauseActive pause]) in *.
  assert (G : g_endSwitch g = f2r (settings ieee l q_terminal)).
  { destruct (near_history ops) as (Q & _). unfold g, settings_after. rewrite <- Q. subst ops. rewrite <- gset_settings by auto. reflexivity. }
  destruct Hi as [(F1 & D0) (D2 & _) (F2 & I0) IT IE].
  unfold g. rewrite <- (C100_rounded ops (real_foot left) (real_foot right) (f2r init) (f2r dT) (map real_step srt) B Hg D0 D2 I0); auto.
  - unfold g in G. rewrite G. exact IE.
  - intros t Hin. split; [auto|]. unfold impacts in Hin. apply in_map_iff in Hin. destruct Hin as (y & <- & Hy).
    assert (Hy2 : In y (map real_step srt)).
    { unfold planned in Hy. destruct (map real_step srt) as [|a [|b o]]; cbn in Hy |- *; auto; contradiction. }
    apply in_map_iff in Hy2. destruct Hy2 as (z & <- & Hz). apply Hs, in_all, IT in Hz. destruct Hz as (_ & Hz). apply Rabs_le_inv in Hz. exact (proj2 Hz).
Qed.
Print Assumptions C100_doubles.

(** C100: on a tie the two differ. *)
Theorem C100_tie_refuted : exists left right dT srt out,
  is_b64 dT /\ times_b64 (fp_steps left ++ fp_steps right) /\ sort_result (fp_steps left) (fp_steps right) srt
  /\ generate_phases_r b64 (settings64 []) left right 0 dT srt = Ok out
  /\ generate_phases (settings_after []) left right 0 dT srt <> Ok out.
Proof.
  destruct C81_half_sample_refuted as (left & right & dT & srt & out & t & e & H1 & H2 & H3 & H4 & H5 & H6 & H7).
  exists left, right, dT, srt, out. repeat (split; [assumption|]). intros K.
  destruct (C35_no_drift [] left right 0 dT srt out K 0 t H5) as (e' & K1 & K2). change (2 * 0 + 2)%nat with 2%nat in K1. rewrite H6 in K1. injection K1 as <-. lra.
Qed.
Print Assumptions C100_tie_refuted.

(** The walk of [GenProofs4] with a switch over swing ratio of 1/4, sampled at 4 Hz. *)
Example C100_example : let ops := [GoSwitch (1 / 4)] in let g := settings_after ops in let d := margin 2 4 in
  List.Forall gop_b64 ops /\ impacts exSrt = [2; 4]
  /\ off_ties (1 / 4) d (g_endSwitch g) /\ settled g (1 / 4) d false true 0 [2; 4].
Proof.
  intros ops g d.
  assert (Eg : g = MkG (1 / 5) 1 10 2 true (1 / 2) (1 / 2)).
  { unfold g, settings_after, ops. cbn [fold_left gset_run]. unfold set_switchRatio. destruct (Rleb (1 / 4) 0) eqn:K; [apply Rleb_true in K; lra|]. cbn [fst gset_new g_endSwitch g_maxStep g_nomStep g_pause g_mrBegin g_mrEnd]. f_equal. lra. }
  assert (D : d = 19 * 4 / 1125899906842624).
  { unfold d, margin. change (bpow radix2 (-50)) with (/ 1125899906842624). cbn [INR]. lra. }
  assert (F8 : Zfloor (2 / (1 / 4) + / 2) = 8%Z) by (apply Zfloor_imp; cbn [Z.add]; simpl; lra).
  split; [|split; [|split]].
  - constructor; [|constructor]. simpl. replace (1 / 4) with (IZR 1 * bpow radix2 (-2)) by (simpl; lra). apply is_b64_dyadic; lia.
  - reflexivity.
  - rewrite Eg. apply (off_between _ _ _ 4); cbn [g_endSwitch]; lra.
  - rewrite Eg. cbn [settled andb]. unfold support. cbn [g_switchPct g_pause g_maxStep g_nomStep g_mrBegin g_mrEnd].
    replace (2 - 0) with 2 by ring. rewrite F8. replace (4 - (0 + 8 * (1 / 4))) with 2 by lra. cbn [andb].
    assert (K : Rltb 10 2 = false) by (rcases; auto; lra). rewrite K.
    assert (T2 : off_ties (1 / 4) d 2) by (apply (off_between _ _ _ 8); lra).
    assert (T3 : off_ties (1 / 4) d (1 / 5 * 2)) by (apply (off_between _ _ _ 2); lra).
    assert (T4 : off_ties (1 / 4) d (1 / 5 * 2 * (1 - 1 / 2))) by (apply (off_between _ _ _ 1); lra).
    assert (A2 : d < Rabs 2) by (rewrite Rabs_pos_eq; lra). assert (A8 : d < Rabs (2 - 10)) by (rewrite Rabs_left; lra).
    repeat split; auto; discriminate.
Qed.
