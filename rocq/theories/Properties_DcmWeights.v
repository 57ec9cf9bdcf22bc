(** C104: the weights of the feet of the DCM generator in doubles. *)
From Coq Require Import String Reals ZArith List Bool Lia Lra Sorting.Sorted Sorting.Permutation.
From Flocq Require Import Core IEEE754.BinarySingleNaN.
From Verif Require Import Prelude UnicycleFoot FootPrint GenPhases GenSpec Rounding RoundedGen RoundedGenSpec RoundedGenProofs2 RoundedGenProofs3 RoundedGenProofs4
  Doubles DoublesGen DoublesSpec DoublesProofs DoublesProofs2 DoublesExec TimedPlan TimedPlanSpec DcmTimes DcmTimesSpec FeetTimes FeetTimesSpec RoomSpec CtrlDoubles CtrlDoublesProofs NavDoublesSpec
  DCM TrackDoublesProofs DcmWeights DcmWeightsSpec DcmWeightsProofs DcmWeightsProofs2 DcmWeightsProofs3
  Properties_DcmTimes Properties_FeetTimes Properties_Room.
Import ListNotations.
Open Scope R_scope.

Lemma single_shares : share64 (c1 ieee, c0 ieee) /\ share64 (c0 ieee, c1 ieee).
Proof. rewrite c0_zero, c1_one. unfold share64, le64, is64. cbn [fst snd]. split; (split; [vm_compute; reflexivity|split; [vm_compute; reflexivity|split; [vm_compute; reflexivity|split; vm_compute; reflexivity]]]). Qed.

(** Whatever the phases, the steps, the offsets, the ZMP and the mathematical functions are, also not numbers: every
    pair of weights that is returned is made of two numbers between 0 and 1 whose sum in doubles is 1. *)
Theorem C104_shares : forall M offL offR P zs ls rs ws, w_compute ieee M offL offR P zs ls rs = Ok ws -> List.Forall share64 ws.
Proof.
  intros M offL offR P zs ls rs ws H. apply List.Forall_forall. intros w Hw. destruct single_shares as (S1 & S2).
  destruct (loop_kinds _ _ _ _ _ _ _ _ _ _ _ _ w H Hw) as [E|[E|(zl & zr & z & E)]]; rewrite E; auto. apply pair_ok.
Qed.
Print Assumptions C104_shares.

(** Phases without an empty one of any arithmetic: there is a pair for every sample, which follows the phases. *)
Theorem C104_follows : forall (N : Type) (A : arith N) (M : maths N) offL offR s pause left right init dT srt ord ph zs ls rs,
  n_generate A s pause left right init dT srt = Ok (ord, ph) -> Permutation srt (n_all (nf_steps left) (nf_steps right)) -> StronglySorted lt (ph_shift ph) ->
  length zs = length (ph_left ph) -> length ls = length (nf_steps left) -> length rs = length (nf_steps right) ->
  exists ws, w_compute A M offL offR ph zs ls rs = Ok ws /\ follows (c1 A) (c0 A) (fun sl sr z w => w = w_pair A M (w_foot A M offL sl) (w_foot A M offR sr) z) ph zs ls rs ws.
Proof. exact weights_ok. Qed.
Print Assumptions C104_follows.

(** In doubles: in single support all the load is on the foot that stands; in double support it is shared as the ZMP is
    between the feet, up to 2^-47. *)
Theorem C104_weights : forall sq cosf sinf at2 offL offR s pause left right init dT srt ord ph zs ls rs, let M := ieee_maths sq cosf sinf at2 in
  n_generate ieee s pause left right init dT srt = Ok (ord, ph) -> Permutation srt (n_all (nf_steps left) (nf_steps right)) -> StronglySorted lt (ph_shift ph) ->
  length zs = length (ph_left ph) -> length ls = length (nf_steps left) -> length rs = length (nf_steps right) ->
  exists ws, w_compute ieee M offL offR ph zs ls rs = Ok ws /\ follows f1 fzero (weighs cosf sinf offL offR) ph zs ls rs ws.
Proof.
  intros sq cosf sinf at2 offL offR s pause left right init dT srt ord ph zs ls rs M Hg Hp Hs L1 L2 L3.
  destruct (weights_ok _ ieee M offL offR s pause left right init dT srt ord ph zs ls rs Hg Hp Hs L1 L2 L3) as (ws & E & Lw & F). exists ws. split; auto. split; auto.
  intros j a b k p w Ea Eb Hk Ep Ew. specialize (F j a b k p w Ea Eb Hk Ep Ew). rewrite c0_zero, c1_one in F.
  assert (X : forall sl sr z, paired f64 ieee M offL offR sl sr z w -> weighs cosf sinf offL offR sl sr z w).
  { intros sl sr z ->. split; [apply pair_ok|]. intros PL PR PZ HD. exact (share_near sq cosf sinf at2 _ _ z PL PR PZ HD). }
  destruct p; auto; destruct F as (sl & sr & z & F1 & F2 & F3 & F4); exists sl, sr, z; auto.
Qed.
Print Assumptions C104_weights.

(** With the settings of C97 a successful plan has weights for all samples of the DCM. *)
Theorem C104_after_the_plan : forall P (o : geo f64 P) calls init tend aT rst st left0 right0 n left right sw sl pause dT srt B delta,
  List.Forall finite_args calls ->
  let s := settings ieee calls in let c := cfg64 s init tend aT rst st in
  let L := nfoot_with "left" left in let Rt := nfoot_with "right" right in
  fin init = true -> fin tend = true -> resolves (f2r (s q_period)) (f2r tend) ->
  times_ok left0 -> times_ok right0 -> fresh64 left0 right0 -> recent left0 right0 init delta ->
  t_plan ieee c o n left0 right0 = TDone left right sw sl -> ample s pause tend dT B delta -> sorted64 L Rt srt ->
  exists ord ph tr us, n_generate ieee s pause L Rt init dT srt = Ok (ord, ph) /\ k_compute ieee s pause dT (map (n_name (N:=f64)) ord) ph = Ok (tr, us)
    /\ forall sq cosf sinf at2 offL offR zs ls rs, length zs = length us -> length ls = length left -> length rs = length right ->
       exists ws, w_compute ieee (ieee_maths sq cosf sinf at2) offL offR ph zs ls rs = Ok ws /\ follows f1 fzero (weighs cosf sinf offL offR) ph zs ls rs ws.
Proof.
  intros P o calls init tend aT rst st left0 right0 n left right sw sl pause dT srt B delta FA s c L Rt Fi Fe Hr TL TR FR HI H HA HS.
  destruct (C97_plan_to_trajectories P o calls init tend aT rst st left0 right0 n left right sw sl pause dT srt B delta FA Fi Fe Hr TL TR FR HI H HA HS) as (ord & ph & G & _ & St & _ & _ & _ & (tr & us & K & _ & Lu & _) & _).
  exists ord, ph, tr, us. split; [exact G|]. split; [exact K|]. intros sq cosf sinf at2 offL offR zs ls rs L1 L2 L3.
  apply (C104_weights sq cosf sinf at2 offL offR s pause L Rt init dT srt ord ph zs ls rs); auto; [apply HS|congruence| |]; unfold L, Rt, nfoot_with; cbn [nf_steps]; rewrite map_length; auto.
Qed.
Print Assumptions C104_after_the_plan.

(** A ZMP exactly at a foot's puts all the load on that foot, when the ZMPs of the feet are apart. *)
Theorem C104_at_a_foot : forall sq cosf sinf at2 zl zr, let M := ieee_maths sq cosf sinf at2 in placed zl -> placed zr -> bpow radix2 (-470) <= dist zr zl ->
  all_left (w_pair ieee M zl zr zl) /\ all_right (w_pair ieee M zl zr zr).
Proof.
  intros sq cosf sinf at2 zl zr M PL PR HD. destruct (norm_ok sq cosf sinf at2 zr zl PR PL) as (Fd & Hd & Nd). destruct (norm_ok sq cosf sinf at2 zl zl PL PL) as (Fn & Hn & Nn). fold M in Fd, Hd, Nd, Fn, Hn, Nn.
  assert (Dp : 0 < f2r (w_norm ieee M (w_sub ieee zr zl))).
  { assert (E1 : 4 * bpow radix2 (-530) <= u64 * bpow radix2 (-470)). { unfold u64. assert (A : / 2 = bpow radix2 (-1)) by reflexivity. change 4 with (bpow radix2 2). rewrite ?A. rewrite <- !bpow_plus. apply bpow_le. lia. }
    pose proof (bpow_gt_0 radix2 (-470)) as P. apply Rabs_le_inv in Nd. assert (U : u64 <= / 1024) by (rewrite u64_val; lra).
    assert (u64 * dist zr zl <= / 1024 * dist zr zl) by (apply Rmult_le_compat_r; lra). assert (u64 * bpow radix2 (-470) <= / 1024 * bpow radix2 (-470)) by (apply Rmult_le_compat_r; lra). lra. }
  assert (Zn : f2r (w_norm ieee M (w_sub ieee zl zl)) = 0).
  { destruct PL as (A1 & A2 & _). unfold w_norm, w_sub. cbn [fst snd a_sub a_add a_mul ieee x_sqrt M ieee_maths]. 
    assert (T0 : Rabs 0 <= top) by (rewrite Rabs_R0; pose proof top1; lra). assert (B0 : b64 0 = 0) by apply (b64_fix 0 is_b64_0).
    assert (Z : forall x, fin x = true -> fin (fsub x x) = true /\ f2r (fsub x x) = 0).
    { intros x Fx. destruct (fsub_ok x x Fx Fx) as (F & V); [rewrite Rminus_diag_eq by reflexivity; exact T0|]. rewrite Rminus_diag_eq, B0 in V by reflexivity. auto. }
    assert (Y : forall x, fin x = true -> f2r x = 0 -> fin (fmul x x) = true /\ f2r (fmul x x) = 0).
    { intros x Fx Hx. destruct (fmul_ok x x Fx Fx) as (F & V); rewrite Hx, Rmult_0_l in *; auto. rewrite B0 in V. auto. }
    destruct (Z _ A1) as (X1 & X2). destruct (Z _ A2) as (X3 & X4). destruct (Y _ X1 X2) as (Y1 & Y2). destruct (Y _ X3 X4) as (Y3 & Y4).
    destruct (fadd_ok _ _ Y1 Y3) as (W1 & W2); rewrite Y2, Y4, Rplus_0_l in *; auto. rewrite B0 in W2. destruct (fsqrt_ok _ W1) as (_ & W4); [lra|]. rewrite W4, W2, sqrt_0. exact B0. }
  destruct f1_ok as (F1 & V1). assert (F0 : fin fzero = true /\ f2r fzero = 0) by (split; reflexivity). destruct F0 as (F0 & V0).
  assert (G : forall z v, fin (w_norm ieee M (w_sub ieee z zl)) = true -> f2r (w_norm ieee M (w_sub ieee z zl)) / f2r (w_norm ieee M (w_sub ieee zr zl)) = v -> v = 0 \/ v = 1 ->
    f2r (w_share ieee M zl zr z) = 1 - v /\ f2r (fsub f1 (w_share ieee M zl zr z)) = v /\ fin (w_share ieee M zl zr z) = true /\ fin (fsub f1 (w_share ieee M zl zr z)) = true).
  { intros z v Fz Ev Hv. pose proof top1 as T1. destruct (fdiv_ok _ (w_norm ieee M (w_sub ieee zr zl)) Fz) as (Fq & Vq); [lra|rewrite Ev; destruct Hv as [Hv|Hv]; rewrite Hv; rewrite Rabs_pos_eq; lra|]. rewrite Ev in Vq.
    assert (Vq2 : f2r (fdiv (w_norm ieee M (w_sub ieee z zl)) (w_norm ieee M (w_sub ieee zr zl))) = v) by (rewrite Vq; destruct Hv as [Hv|Hv]; rewrite Hv; apply b64_fix; [apply is_b64_0|apply is_b64_1]).
    destruct (fsub_ok f1 _ F1 Fq) as (Fs & Vs); [rewrite V1, Vq2; destruct Hv as [Hv|Hv]; rewrite Hv; rewrite Rabs_pos_eq; lra|]. rewrite V1, Vq2 in Vs.
    assert (W : f2r (w_share ieee M zl zr z) = 1 - v /\ fin (w_share ieee M zl zr z) = true).
    { unfold w_share. rewrite c1_one. cbn [a_sub a_div ieee]. split; [|apply clip_ok]. rewrite clip_fin by exact Fs. rewrite Vs. destruct Hv as [Hv|Hv]; rewrite Hv.
      - replace (1 - 0) with 1 by ring. rewrite (b64_fix 1 is_b64_1), Rmax_right, Rmin_left; lra.
      - replace (1 - 1) with 0 by ring. rewrite (b64_fix 0 is_b64_0), Rmax_left, Rmin_right; lra. }
    destruct W as (W1 & W2). destruct (fsub_ok f1 _ F1 W2) as (Fr & Vr); [rewrite V1, W1; destruct Hv as [Hv|Hv]; rewrite Hv; rewrite Rabs_pos_eq; lra|]. rewrite V1, W1 in Vr.
    replace (1 - (1 - v)) with v in Vr by ring. rewrite b64_fix in Vr by (destruct Hv as [Hv|Hv]; rewrite Hv; [apply is_b64_0|apply is_b64_1]). auto. }
  unfold all_left, all_right, is64, w_pair. rewrite c1_one. cbn [fst snd a_sub ieee]. split.
  - destruct (G zl 0 Fn) as (G1 & G2 & G3 & G4); [rewrite Zn; unfold Rdiv; ring|auto|]. rewrite !beq_ok by auto. rewrite G1, G2, V1, V0. split; apply Reqb_true; lra.
  - destruct (G zr 1 Fd) as (G1 & G2 & G3 & G4); [field; lra|auto|]. rewrite !beq_ok by auto. rewrite G1, G2, V1, V0. split; apply Reqb_true; lra.
Qed.
Print Assumptions C104_at_a_foot.

(** A finding: a ZMP that is not a number, or ZMPs of the feet that coincide, put all the load on the right foot without
    any sign of failure, wherever the ZMP is. *)
Lemma nan_args : forall x, fsub fnan x = fnan /\ fsub x fnan = fnan /\ fmul fnan x = fnan /\ fadd fnan x = fnan /\ fadd x fnan = fnan /\ fdiv fnan x = fnan /\ fdiv x fnan = fnan.
Proof. intros x. destruct x as [s|s| |s m e H]; repeat split; reflexivity. Qed.
Lemma right_of : forall x, Bltb fzero x = false -> all_right (let w := w_min1 ieee (w_max0 ieee x) in (w, fsub f1 w)).
Proof.
  intros x H. unfold w_min1, w_max0. rewrite c0_zero, c1_one. cbn [a_lt ieee]. rewrite H. replace (Bltb fzero f1) with true by (vm_compute; reflexivity). split; vm_compute; reflexivity.
Qed.
Theorem C104_nan_refuted : forall sq cosf sinf at2 zl zr z, let M := ieee_maths sq cosf sinf at2 in fst z = fnan \/ snd z = fnan -> all_right (w_pair ieee M zl zr z).
Proof.
  intros sq cosf sinf at2 zl zr (z1 & z2) M H. cbn [fst snd] in H. unfold w_pair, w_share. rewrite c1_one. cbn [a_sub a_div ieee]. apply right_of.
  assert (E : w_norm ieee M (w_sub ieee (z1, z2) zl) = fnan).
  { unfold w_norm, w_sub. cbn [fst snd a_sub a_add a_mul ieee x_sqrt M ieee_maths]. destruct H as [->| ->].
    - destruct (nan_args (fst zl)) as (E & _). rewrite E. destruct (nan_args fnan) as (_ & _ & E2 & _). rewrite E2. destruct (nan_args (fmul (fsub z2 (snd zl)) (fsub z2 (snd zl)))) as (_ & _ & _ & E3 & _). rewrite E3. reflexivity.
    - destruct (nan_args (snd zl)) as (E & _). rewrite E. destruct (nan_args fnan) as (_ & _ & E2 & _). rewrite E2. destruct (nan_args (fmul (fsub z1 (fst zl)) (fsub z1 (fst zl)))) as (_ & _ & _ & _ & E3 & _). rewrite E3. reflexivity. }
  rewrite E. destruct (nan_args (w_norm ieee M (w_sub ieee zr zl))) as (_ & _ & _ & _ & _ & E2 & _). rewrite E2. destruct (nan_args f1) as (_ & E3 & _). rewrite E3. apply blt_nan.
Qed.
Print Assumptions C104_nan_refuted.

Lemma sub_self : forall x, fin x = true -> fsub x x = fzero.
Proof.
  intros x Fx. pose proof (Bminus_correct 53 1024 prec64 emax64 mode_NE x x Fx Fx) as Q. rewrite <- b64_eq in Q.
  rewrite Rminus_diag_eq, (b64_fix 0 is_b64_0), Rabs_R0 in Q by reflexivity. rewrite Rlt_bool_true in Q by apply bpow_gt_0.
  assert (Q' : f2r (fsub x x) = 0 /\ fin (fsub x x) = true /\ Bsign (fsub x x) = match Rcompare 0 0 with Eq => andb (Bsign x) (negb (Bsign x)) | Lt => true | Gt => false end) by exact Q. clear Q.
  destruct Q' as (V & F & G). rewrite Rcompare_Eq in G by reflexivity. destruct (fsub x x) as [g|g| |g m e H]; try discriminate.
  - cbn [Bsign] in G. rewrite G. unfold fzero. f_equal. destruct (Bsign x); reflexivity.
  - exfalso. unfold f2r in V. cbn in V. apply eq_0_F2R in V. destruct g; discriminate.
Qed.
Theorem C104_coincident_refuted : forall sq cosf sinf at2 zl z, let M := ieee_maths sq cosf sinf at2 in placed zl -> placed z -> all_right (w_pair ieee M zl zl z).
Proof.
  intros sq cosf sinf at2 zl z M PL PZ. destruct (norm_ok sq cosf sinf at2 z zl PZ PL) as (Fn & Hn & _). fold M in Fn, Hn. destruct PL as (A1 & A2 & _).
  unfold w_pair, w_share. rewrite c1_one. cbn [a_sub a_div ieee]. apply right_of. set (n := w_norm ieee M (w_sub ieee z zl)) in *.
  assert (E : w_norm ieee M (w_sub ieee zl zl) = fzero). { unfold w_norm, w_sub. cbn [fst snd a_sub a_add a_mul ieee x_sqrt M ieee_maths]. rewrite (sub_self _ A1), (sub_self _ A2). apply same_f64. vm_compute. reflexivity. }
  rewrite E. destruct n as [g|g| |g m e H] eqn:En; try discriminate.
  - replace (fdiv (B754_zero g) fzero) with fnan by reflexivity. destruct (nan_args f1) as (_ & E3 & _). rewrite E3. apply blt_nan.
  - destruct g. { exfalso. unfold f2r in Hn. simpl in Hn. assert (F2R (Float radix2 (Zneg m) e) < 0) by (apply F2R_lt_0; simpl; lia). lra. }
    replace (fdiv (B754_finite false m e H) fzero) with finf by reflexivity. vm_compute. reflexivity.
Qed.
Print Assumptions C104_coincident_refuted.

(** With exact arithmetic this is the loop of C56 on finite ZMPs, when the ZMPs of the feet are apart. *)
Definition dp_of (s : step) : dpose R := MkDP (vx (st_pos s)) (vy (st_pos s)) (st_angle s).
Definition pr_of (v : vec2) : R * R := (vx v, vy v).
Theorem C104_exact_model : forall c lph (zs : list dsample) ps ends inst ls rs, map ds_z zs = map Some ps ->
  (forall sl sr, In sl ls -> In sr rs -> vnorm (vsub (foot_zmp (dc_offR c) sr) (foot_zmp (dc_offL c) sl)) <> 0) ->
  w_loop reals exact_maths (pr_of (dc_offL c)) (pr_of (dc_offR c)) lph (map pr_of ps) ends inst (map dp_of ls) (map dp_of rs) = weight_loop c lph zs ends inst ls rs.
Proof.
  intros c lph zs ps ends. intros inst ls rs Hz. assert (L : length zs = length ps) by (rewrite <- (map_length ds_z zs), Hz, map_length; reflexivity).
  revert inst ls rs. induction ends as [|e ends IH]; intros inst ls rs Hd; [reflexivity|]. cbn [w_loop weight_loop]. rewrite map_length, L, c0r, c1r.
  assert (Fp : forall sl sr, In sl ls -> In sr rs -> Nat.ltb (length ps) e = false ->
    map (w_pair reals exact_maths (w_foot reals exact_maths (pr_of (dc_offL c)) (dp_of sl)) (w_foot reals exact_maths (pr_of (dc_offR c)) (dp_of sr))) (firstn (e - inst) (skipn inst (map pr_of ps)))
    = map (fun i => let w := left_share (foot_zmp (dc_offL c) sl) (foot_zmp (dc_offR c) sr) (match nth_error zs i with Some y => ds_z y | None => None end) in (w, 1 - w)) (seq inst (e - inst))).
  { intros sl sr I1 I2 He. apply Nat.ltb_ge in He. assert (K : forall n i, (i + n <= length ps)%nat \/ n = 0%nat ->
      map (w_pair reals exact_maths (w_foot reals exact_maths (pr_of (dc_offL c)) (dp_of sl)) (w_foot reals exact_maths (pr_of (dc_offR c)) (dp_of sr))) (firstn n (skipn i (map pr_of ps)))
      = map (fun i => let w := left_share (foot_zmp (dc_offL c) sl) (foot_zmp (dc_offR c) sr) (match nth_error zs i with Some y => ds_z y | None => None end) in (w, 1 - w)) (seq i n)).
    { induction n as [|n IHn]; intros i Hi; [reflexivity|]. destruct Hi as [Hi|Hi]; [|discriminate]. cbn [seq map].
      assert (Ep : exists p, nth_error ps i = Some p). { destruct (nth_error ps i) as [p|] eqn:E; [eauto|]. apply nth_error_None in E. lia. } destruct Ep as (p & Ep).
      assert (Ez : match nth_error zs i with Some y => ds_z y | None => None end = Some p).
      { apply (f_equal (fun l => nth_error l i)) in Hz. rewrite !nth_error_map, Ep in Hz. destruct (nth_error zs i) as [y|]; cbn in Hz; [congruence|discriminate]. }
      assert (Es : skipn i (map pr_of ps) = pr_of p :: skipn (S i) (map pr_of ps)).
      { clear - Ep. revert i Ep. induction ps as [|q ps IHp]; intros i Ep; [destruct i; discriminate|]. destruct i; cbn in *; [congruence|]. apply IHp; auto. }
      rewrite Es. cbn [firstn map]. rewrite (IHn (S i) ltac:(left; lia)). f_equal. rewrite Ez. cbv zeta. unfold left_share.
      pose proof (Hd sl sr I1 I2) as D. apply Reqb_false in D. rewrite D.
      assert (W : w_share reals exact_maths (w_foot reals exact_maths (pr_of (dc_offL c)) (dp_of sl)) (w_foot reals exact_maths (pr_of (dc_offR c)) (dp_of sr)) (pr_of p)
                = Rmin 1 (Rmax 0 (1 - vnorm (vsub p (foot_zmp (dc_offL c) sl)) / vnorm (vsub (foot_zmp (dc_offR c) sr) (foot_zmp (dc_offL c) sl))))).
      { unfold w_share, w_min1, w_max0. rewrite c0r, c1r. cbn [a_lt a_sub a_div reals].
        replace (w_norm reals exact_maths (w_sub reals (pr_of p) (w_foot reals exact_maths (pr_of (dc_offL c)) (dp_of sl)))) with (vnorm (vsub p (foot_zmp (dc_offL c) sl))) by reflexivity.
        replace (w_norm reals exact_maths (w_sub reals (w_foot reals exact_maths (pr_of (dc_offR c)) (dp_of sr)) (w_foot reals exact_maths (pr_of (dc_offL c)) (dp_of sl)))) with (vnorm (vsub (foot_zmp (dc_offR c) sr) (foot_zmp (dc_offL c) sl))) by reflexivity.
        set (x := 1 - _). destruct (Rltb 0 x) eqn:X1; [apply Rltb_true in X1; rewrite (Rmax_right 0 x) by lra|apply Rltb_false in X1; rewrite (Rmax_left 0 x) by lra].
        - destruct (Rltb x 1) eqn:X2; [apply Rltb_true in X2; rewrite Rmin_right; lra|apply Rltb_false in X2; rewrite Rmin_left; lra].
        - destruct (Rltb 0 1) eqn:X2; [rewrite Rmin_right; lra|apply Rltb_false in X2; lra]. }
      unfold w_pair. rewrite W, c1r. reflexivity. }
    apply K. lia. }
  destruct (nth_error lph inst) as [[]|]; [| | | |reflexivity].
  - destruct rs as [|sr [|sr2 rs]]; [destruct ls; reflexivity|destruct ls; reflexivity|].
    assert (IH' : w_loop reals exact_maths (pr_of (dc_offL c)) (pr_of (dc_offR c)) lph (map pr_of ps) ends (Nat.max inst e) (map dp_of ls) (map dp_of (sr2 :: rs)) = weight_loop c lph zs ends (Nat.max inst e) ls (sr2 :: rs))
      by (apply IH; intros; apply Hd; [assumption|right; assumption]).
    rewrite <- IH'. destruct ls; reflexivity.
  - destruct ls as [|sl ls]; destruct rs as [|sr rs]; cbn [map]; auto. destruct (Nat.ltb (length ps) e) eqn:He; [reflexivity|]. rewrite (Fp sl sr) by (auto; left; reflexivity).
    rewrite <- (IH (Nat.max inst e) (sl :: ls) (sr :: rs) Hd). reflexivity.
  - destruct ls as [|sl ls]; destruct rs as [|sr rs]; cbn [map]; auto. destruct (Nat.ltb (length ps) e) eqn:He; [reflexivity|]. rewrite (Fp sl sr) by (auto; left; reflexivity).
    rewrite <- (IH (Nat.max inst e) (sl :: ls) (sr :: rs) Hd). reflexivity.
  - destruct ls as [|sl [|sl2 ls]]; [destruct rs; reflexivity|destruct rs; reflexivity|].
    assert (IH' : w_loop reals exact_maths (pr_of (dc_offL c)) (pr_of (dc_offR c)) lph (map pr_of ps) ends (Nat.max inst e) (map dp_of (sl2 :: ls)) (map dp_of rs) = weight_loop c lph zs ends (Nat.max inst e) (sl2 :: ls) rs)
      by (apply IH; intros; apply Hd; [right; assumption|assumption]).
    rewrite <- IH'. destruct rs; reflexivity.
Qed.
Print Assumptions C104_exact_model.

(** The one step of C95 at 100 Hz, feet one meter to the left and to the right, ZMP in the middle: 158 weights, one half each
    before the swing, all on the left during it. *)
Definition two_left : list (dpose f64) := [MkDP fzero f1 fzero].
Definition two_right : list (dpose f64) := [MkDP fzero fm1 fzero; MkDP fzero fm1 fzero].
Example C104_example : exists ord ph ws, let M := ieee_maths (fun x => x) (fun _ => f1) (fun _ => fzero) (fun _ _ => fzero) in
  n_generate ieee (settings ieee set_feet) true one_left one_right fzero hundredth one_sorted = Ok (ord, ph)
  /\ w_compute ieee M (fzero, fzero) (fzero, fzero) ph (repeat (fzero, fzero) 158) two_left two_right = Ok ws
  /\ length ws = 158%nat /\ List.Forall share64 ws
  /\ (forall w, nth_error ws 10 = Some w -> is64 (fst w) (fmake 1 (-1)) /\ is64 (snd w) (fmake 1 (-1)))
  /\ (forall w, nth_error ws 40 = Some w -> all_left w).
Proof.
  pose proof (feet_run ieee exec_ok) as Q. assert (K : forall A, A = exec -> match n_generate A (settings A set_feet) true one_left one_right fzero hundredth one_sorted with
    | Ok (o, p) => nth_error (ph_left p) 10 = Some SwitchIn /\ nth_error (ph_left p) 40 = Some Stance /\ nth_error (ph_left p) 0 = Some SwitchIn /\ nth_error (ph_right p) 0 = Some SwitchOut | _ => False end)
    by (intros A ->; vm_compute; repeat split; reflexivity). specialize (K ieee exec_ok).
  destruct (n_generate ieee (settings ieee set_feet) true one_left one_right fzero hundredth one_sorted) as [(ord & ph)| |] eqn:E; [|contradiction|contradiction].
  destruct Q as (Q1 & Q2 & _). destruct K as (K1 & K2 & K3 & K4).
  destruct (C104_follows _ ieee (ieee_maths (fun x => x) (fun _ => f1) (fun _ => fzero) (fun _ _ => fzero)) (fzero, fzero) (fzero, fzero) _ _ _ _ _ _ _ _ _ (repeat (fzero, fzero) 158) two_left two_right E) as (ws & Ew & Lw & Fw).
  - apply Permutation_refl.
  - rewrite Q1. repeat constructor; lia.
  - rewrite Q2. reflexivity.
  - reflexivity.
  - reflexivity.
  - exists ord, ph, ws. split; [reflexivity|]. split; [exact Ew|]. split; [exact Lw|]. split; [apply (C104_shares _ _ _ _ _ _ _ _ Ew)|]. split; intros w Hw.
    + assert (F := Fw 0%nat 0%nat 29%nat 10%nat SwitchIn w). rewrite Q1 in F. specialize (F eq_refl eq_refl ltac:(lia) K1 Hw).
      destruct F as (sl & sr & z & F1 & F2 & F3 & ->). cbn [firstn] in F1, F2. unfold swings in F1, F2. cbn [removelast filter length nth_error] in F1, F2. cbn [repeat nth_error] in F3.
      injection F1 as <-. injection F2 as <-. injection F3 as <-. split; vm_compute; reflexivity.
    + assert (F := Fw 1%nat 29%nat 58%nat 40%nat Stance w). rewrite Q1 in F. specialize (F eq_refl eq_refl ltac:(lia) K2 Hw). rewrite F. split; vm_compute; reflexivity.
Qed.
(** The hypotheses of [C104_at_a_foot] are met by feet one meter apart. *)
Example C104_apart : placed (fzero, fzero) /\ placed (f1, fzero) /\ bpow radix2 (-470) <= dist (f1, fzero) (fzero, fzero).
Proof.
  destruct f1_ok as (F1 & V1). assert (V0 : f2r fzero = 0) by reflexivity. pose proof (bpow_le radix2 0 500 ltac:(lia)) as B. pose proof (bpow_le radix2 (-470) 0 ltac:(lia)) as B2. change (bpow radix2 0) with 1 in *.
  unfold placed, dist. cbn [fst snd]. rewrite V1, V0, Rabs_R0, Rabs_R1. replace ((1 - 0) * (1 - 0) + (0 - 0) * (0 - 0)) with 1 by ring. rewrite sqrt_1.
  split; [|split; [|lra]]; (split; [reflexivity || exact F1|split; [reflexivity|split; lra]]).
Qed.
