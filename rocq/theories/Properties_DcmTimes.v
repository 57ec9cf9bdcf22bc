(** C90, C91: the times of the DCM generator in doubles, and the phases whatever the arithmetic. *)
From Coq Require Import String Reals ZArith List Bool Lia Lra Sorting.Sorted Sorting.Permutation Floats.SpecFloat.
From Flocq Require Import Core IEEE754.BinarySingleNaN.
From Verif Require Import Prelude Rounding FootPrint GenPhases GenSpec ZMP DCM RoundedGen RoundedGenSpec RoundedGenProofs2 RoundedGenProofs3 Doubles DoublesGen DoublesSpec DoublesProofs
  DoublesProofs2 DoublesProofs4 DoublesExec AnyArithSpec AnyArithProofs DcmTimes DcmTimesSpec DcmTimesProofs DcmTimesExact Properties_Doubles.
Import ListNotations.
Open Scope R_scope.

(** ** C90: the DCM generator in doubles *)
(** With exact arithmetic the model of the times is the model of DCM.v: same outcome, the domains are those of its
    sub-trajectories, and each sample is the evaluation of the sub-trajectory with the domain that was used. *)
Theorem C90_exact_model : forall c Z dT ord shift lph p0 v0,
  k_build reals (dc_om c) (dc_still c) dT (z_pause Z) (z_max Z) (z_nom Z) (z_end Z) (map st_name ord) shift lph
    = rmap (map dom) (build c Z dT ord shift lph p0 v0)
  /\ forall n i tr, rmap (@length _) (k_eval reals dT n i (map dom tr)) = rmap (@length _) (eval_loop dT n i tr)
     /\ forall us ys, k_eval reals dT n i (map dom tr) = Ok us -> eval_loop dT n i tr = Ok ys ->
        forall k y, nth_error ys k = Some y -> exists x t, In x tr /\ nth_error us k = Some (dom x) /\ t = INR (i + k) * dT
          /\ y = MkDS (sub_pos x t) (sub_vel x t) (sub_zmp x t).
Proof. intros. split; [apply build_exact|intros; apply eval_exact]. Qed.
Print Assumptions C90_exact_model.

(** The same for construction and evaluation together: each sample is the one of the sub-trajectory with the domain chosen,
    at its instant counted from the first phase shift. *)
Theorem C90_exact_samples : forall c Z dT ord shift lph p0 v0,
  let mk := do tr <- build c Z dT ord shift lph p0 v0; do ys <- evaluate dT shift tr; Ok (tr, ys) in
  let km := k_generate reals (dc_om c) (dc_still c) dT (z_pause Z) (z_max Z) (z_nom Z) (z_end Z) (map st_name ord) shift lph in
  rmap (fun x => (fst x, length (snd x))) km = rmap (fun x => (map dom (fst x), length (snd x))) mk
  /\ forall kt us tr ys, km = Ok (kt, us) -> mk = Ok (tr, ys) ->
     forall k y, nth_error ys k = Some y -> exists x t, In x tr /\ nth_error us k = Some (dom x) /\ t = INR (hd 0%nat shift + k) * dT
       /\ y = MkDS (sub_pos x t) (sub_vel x t) (sub_zmp x t).
Proof.
  intros c Z dT ord shift lph p0 v0 mk km. unfold mk, km, k_generate. destruct (C90_exact_model c Z dT ord shift lph p0 v0) as (E1 & E2). rewrite E1. clear E1.
  destruct (build c Z dT ord shift lph p0 v0) as [tr| |]; cbn [rmap rbind]; [|split; [reflexivity|discriminate]|split; [reflexivity|discriminate]].
  unfold k_evaluate, evaluate. destruct shift as [|a l]; cbn [rbind rmap]; [split; [reflexivity|discriminate]|].
  destruct (sub_size (last (a :: l) 0%nat) a) as [n| |]; cbn [rbind rmap]; [|split; [reflexivity|discriminate]|split; [reflexivity|discriminate]].
  destruct (E2 n a tr) as (E3 & E4).
  destruct (k_eval reals dT n a (map dom tr)) as [us| |], (eval_loop dT n a tr) as [ys| |]; cbn [rmap rbind fst snd] in *; try discriminate; (split; [|try discriminate]); auto.
  - injection E3 as ->. reflexivity.
  - intros kt us' tr' ys' X Y k y Hk. inversion X; inversion Y; subst. cbn [hd]. eauto.
Qed.
Print Assumptions C90_exact_samples.

(** No assertion fails and the iterator over the sub-trajectories stays inside; the sub-trajectories are all built and
    follow each other, in doubles, from 0 to the last instant. *)
Theorem C90_no_abort : forall om still dT pause mx nom es ord shift lph,
  k_limits om still dT pause mx nom es (last shift 0%nat) -> boundaries (length ord) shift ->
  (forall x, In x ord -> known x) -> (2 <= length ord)%nat -> lph <> [] \/ length ord = 2%nat ->
  k_generate ieee om still dT pause mx nom es ord shift lph <> UB
  /\ exists tr, k_build ieee om still dT pause mx nom es ord shift lph = Ok tr /\ tiles64 fzero (instant dT (last shift 0%nat)) tr.
Proof.
  intros om still dT pause mx nom es ord shift lph Hl Hb Hn H2 Hp. split.
  - eapply generate_defined; eauto.
  - edestruct (build_ok om still dT pause mx nom es (last shift 0%nat) Hl ord shift Hb Hn H2 eq_refl lph Hp) as (tr & A & B & _). eauto.
Qed.
Print Assumptions C90_no_abort.

(** When no sub-trajectory is shorter than a sampling period (and 0.1 percent), every sampling instant is evaluated, in
    a sub-trajectory that contains it: the tolerance of half a period around the domains is never needed. *)
Theorem C90_every_instant : forall om still dT pause mx nom es ord shift lph,
  k_limits om still dT pause mx nom es (last shift 0%nat) -> boundaries (length ord) shift ->
  (forall x, In x ord -> known x) -> (2 <= length ord)%nat -> lph <> [] \/ length ord = 2%nat ->
  k_long still dT pause mx nom es shift ->
  exists tr us, k_generate ieee om still dT pause mx nom es ord shift lph = Ok (tr, us)
    /\ tiles64 fzero (instant dT (last shift 0%nat)) tr /\ length us = last shift 0%nat /\ served dT tr 0 us.
Proof. intros. eapply all_ok; eauto. Qed.
Print Assumptions C90_every_instant.

(** The same after the phase computation, with the settings of any history of setter calls. *)
Theorem C90_after_the_phases : forall l pause left right init dT srt ord ph, List.Forall tame l ->
  let s := settings ieee l in
  (forall x, In x srt -> known (n_name x)) -> n_generate ieee s pause left right init dT srt = Ok (ord, ph) ->
  lt64 fzero (s q_omega) -> fin (s q_still) = true -> bpow radix2 (-50) <= f2r (s q_still) <= 1 ->
  fin dT = true -> bpow radix2 (-900) <= f2r dT <= bpow radix2 900 ->
  fin (s q_maxStep) = true -> f2r (s q_maxStep) <= bpow radix2 900 -> fin (s q_terminal) = true -> f2r (s q_terminal) <= bpow radix2 900 ->
  (Z.of_nat (length (ph_left ph)) <= 2 ^ 50)%Z ->
  k_compute ieee s pause dT (map (n_name (N:=f64)) ord) ph <> UB
  /\ (k_long (s q_still) dT pause (fmul (s q_share) (s q_maxStep)) (fmul (s q_share) (s q_nomStep)) (s q_terminal) (ph_shift ph) ->
      exists tr us, k_compute ieee s pause dT (map (n_name (N:=f64)) ord) ph = Ok (tr, us)
        /\ tiles64 fzero (instant dT (length (ph_left ph))) tr /\ length us = length (ph_left ph) /\ served dT tr 0 us).
Proof.
  intros l pause left right init dT srt ord ph Hl s Hk Hg Ho Fs Hs Fd Hd Fm Hm Ft Ht Hn.
  pose proof (C82_ranges l Hl) as V. fold s in V.
  destruct (generate_shape _ _ _ _ _ _ _ _ _ _ _ Hg) as (P & L2 & bs & w & E1 & E2 & E3 & E4 & E5 & E6).
  assert (LP : length (map n_left (planned_of f64 ord)) = (length ord - 2)%nat) by (rewrite map_length; unfold planned_of; destruct ord as [|? [|? ord']]; cbn [tl length]; lia).
  assert (EL : length (ph_left ph) = last (ph_shift ph) 0%nat).
  { rewrite E5, drawn_length; [|rewrite <- E1; exact E4|right; rewrite LP, E2; lia]. rewrite E1. rewrite last_shift. lia. }
  assert (Hne : ph_left ph <> [] \/ length (map (n_name (N:=f64)) ord) = 2%nat).
  { rewrite map_length. destruct (Nat.eq_dec (length ord) 2); [auto|left]. intros K. rewrite K in EL. cbn [length] in EL. rewrite E1, last_shift in EL. specialize (E3 ltac:(lia)). lia. }
  assert (Hb : boundaries (length (map (n_name (N:=f64)) ord)) (ph_shift ph)).
  { rewrite map_length. unfold boundaries. split; [rewrite E1; reflexivity|]. split; auto. rewrite E1. cbn [length]. rewrite E2. lia. }
  assert (Hk' : forall x, In x (map (n_name (N:=f64)) ord) -> known x).
  { intros x Hx. apply in_map_iff in Hx. destruct Hx as (y & <- & Hy). apply Hk. eapply Permutation_in; eauto. }
  assert (Btw : forall x b, fin b = true -> le64 fzero x -> le64 x b -> fin x = true /\ 0 <= f2r x <= f2r b).
  { intros x b Fb A B. pose proof (le64_inv _ _ A) as A'. pose proof (le64_inv _ _ B) as B'. pose proof (fin_key b Fb).
    change (key fzero) with 0 in A'. rewrite (key_fin b Fb) in *.
    destruct (le64_number _ _ A) as (_ & Nx). assert (Fx : fin x = true).
    { pose proof (bpow_gt_0 radix2 1024). destruct (number_cases x Nx) as [F|[E|E]]; [exact F| |]; exfalso; rewrite E in A', B'; cbn [key finf] in A', B'; lra. }
    rewrite (key_fin x Fx) in *. split; [exact Fx|lra]. }
  destruct f1_ok as (F1 & V1).
  destruct (Btw _ _ F1 (proj1 (v_share _ V)) (proj2 (v_share _ V))) as (Fsh & Hsh). rewrite V1 in Hsh.
  assert (Lm : le64 fzero (s q_nomStep)) by (pose proof (lt64_inv _ _ (proj1 (v_pause _ V))); apply le64_key; [discriminate|apply (lt64_number _ _ (proj1 (v_pause _ V)))|lra]).
  destruct (Btw _ _ Fm Lm (proj2 (v_pause _ V))) as (Fnm & Hnm).
  assert (Ht0 : 0 <= f2r (s q_terminal)) by (pose proof (lt64_inv _ _ (v_terminal _ V)) as K; rewrite (key_fin _ Ft) in K; change (key fzero) with 0 in K; lra).
  assert (Mul : forall x, fin x = true -> 0 <= f2r x <= bpow radix2 900 -> fin (fmul (s q_share) x) = true /\ 0 <= f2r (fmul (s q_share) x) <= bpow radix2 900).
  { intros x Fx Hx. assert (B : 0 <= f2r (s q_share) * f2r x <= bpow radix2 900) by nra.
    destruct (fmul_ok _ _ Fsh Fx) as (A1 & A2). { rewrite Rabs_pos_eq by lra. pose proof pow_top. pose proof (bpow_le radix2 900 1023 ltac:(lia)). lra. }
    split; auto. rewrite A2. rewrite <- b64_0. rewrite <- (b64_fix (bpow radix2 900)) by (replace (bpow radix2 900) with (IZR 1 * bpow radix2 900) by ring; apply is_b64_dyadic; lia).
    split; apply (r_mono _ b64_rounding); lra. }
  destruct (Mul _ Fm ltac:(lra)) as (Fmx & Hmx). destruct (Mul _ Fnm ltac:(lra)) as (Fno & Hno).
  assert (Lim : k_limits (s q_omega) (s q_still) dT pause (fmul (s q_share) (s q_maxStep)) (fmul (s q_share) (s q_nomStep)) (s q_terminal) (last (ph_shift ph) 0%nat)).
  { constructor; auto. rewrite <- EL. auto. }
  assert (Hd0 : 0 < f2r dT) by (pose proof (bpow_gt_0 radix2 (-900)); lra).
  assert (Z0 : forall x, fin x = true -> 0 <= f2r x -> below0 ieee x = false).
  { intros x Fx Hx. unfold below0. rewrite c0_zero. cbn [a_lt ieee]. rewrite blt_ok; auto. change (f2r fzero) with 0. rcases; auto; lra. }
  assert (Z1 : forall x, fin x = true -> 0 < f2r x -> atmost0 ieee x = false).
  { intros x Fx Hx. unfold atmost0. rewrite c0_zero. cbn [a_le ieee]. rewrite ble_ok; auto. change (f2r fzero) with 0. rcases; auto; lra. }
  unfold k_compute. cbn [a_mul ieee]. rewrite (Z1 dT) by auto. split.
  - destruct (k_pause_ok _ _ _ _ _); cbn [negb]; [|discriminate]. apply C90_no_abort; auto. rewrite map_length. lia.
  - intros Hlong. assert (Pk : k_pause_ok ieee pause (fmul (s q_share) (s q_maxStep)) (fmul (s q_share) (s q_nomStep)) (s q_terminal) = true).
    { unfold k_pause_ok. rewrite (Z0 _ Fmx) by lra. rewrite (Z0 _ Ft) by lra. destruct pause; auto.
      destruct (kg_pause _ _ _ _ _ _ _ Hlong eq_refl) as (K1 & K2 & K3). rewrite (Z1 _ Fno) by lra. reflexivity. }
    rewrite Pk. cbn [negb]. rewrite EL. apply C90_every_instant; auto. rewrite map_length. lia.
Qed.
Print Assumptions C90_after_the_phases.

(** A stillness of 0 is accepted, and then an assertion fails for an ordinary walk: one step of the right foot to 0.58 s,
    sampled at 100 Hz, 1.2 s of final switch.  The stop would begin at [t1 + (t2 - t1)], which is above [t2]. *)
Definition one_left : nfoot f64 := built [fzero] "left".
Definition one_right : nfoot f64 := built [fzero; a_q ieee 58 100] "right".
Definition one_sorted : list (nstep f64) := n_all (nf_steps one_left) (nf_steps one_right).
Definition hundredth : f64 := a_q ieee 1 100.
Definition no_still : list (setter f64) := [sTerminal (a_q ieee 12 10); sStill fzero].
Lemma no_still_run : forall A, A = exec ->
  match n_generate A (settings A no_still) true one_left one_right fzero hundredth one_sorted with
  | Ok (o, p) => ph_shift p = [0; 29; 58; 178]%nat /\ k_compute A (settings A no_still) true hundredth (map (n_name (N:=f64)) o) p = UB
  | _ => False
  end.
Proof. intros A ->. vm_compute. split; reflexivity. Qed.
Theorem C90_no_stillness_refuted : exists l ord ph, List.Forall tame l
  /\ (forall c s, In c l -> snd (setv ieee c s) = true)
  /\ n_generate ieee (settings ieee l) true one_left one_right fzero hundredth one_sorted = Ok (ord, ph)
  /\ ph_shift ph = [0; 29; 58; 178]%nat
  /\ k_compute ieee (settings ieee l) true hundredth (map (n_name (N:=f64)) ord) ph = UB.
Proof.
  exists no_still. pose proof (no_still_run ieee exec_ok) as Q.
  destruct (n_generate ieee (settings ieee no_still) true one_left one_right fzero hundredth one_sorted) as [(ord & ph)| |]; [|contradiction|contradiction].
  destruct Q as (Q1 & Q2). exists ord, ph. split; [|split; [|split; [reflexivity|split; [exact Q1|exact Q2]]]].
  - repeat apply Forall_cons; [..|apply Forall_nil]; split; cbn [args In]; try exact Logic.I.
    + intros x [<-|[]] K. assert (Q : is_nan (a_q ieee 12 10) = false) by (vm_compute; reflexivity). rewrite K in Q. discriminate.
    + intros x [<-|[]]. discriminate.
  - intros c s [<-|[<-|[]]]; reflexivity.
Qed.
Print Assumptions C90_no_stillness_refuted.

(** The same walk with the default stillness: every hypothesis holds, so that all 178 instants are evaluated. *)
Lemma f2r_val : forall (x : f64) m e, B2SF x = S754_finite false m (Zneg e) -> fin x = true /\ f2r x = IZR (Zpos m) / IZR (Zpower_pos 2 e).
Proof.
  intros [s|s| |s m e H] m' e' E; try discriminate E. injection E as -> -> ->. split; [reflexivity|].
  unfold f2r. cbn [B2R]. unfold F2R. cbn [Fnum Fexp cond_Zopp]. reflexivity.
Qed.
Lemma default_still_run : forall A, A = exec ->
  match n_generate A (settings A [sTerminal (a_q ieee 12 10)]) true one_left one_right fzero hundredth one_sorted with
  | Ok (o, p) => ph_shift p = [0; 29; 58; 178]%nat /\ length (ph_left p) = 178%nat
  | _ => False
  end.
Proof. intros A ->. vm_compute. split; reflexivity. Qed.
Example C90_example : exists ord ph tr us, let s := settings ieee [sTerminal (a_q ieee 12 10)] in
  n_generate ieee s true one_left one_right fzero hundredth one_sorted = Ok (ord, ph)
  /\ k_compute ieee s true hundredth (map (n_name (N:=f64)) ord) ph = Ok (tr, us)
  /\ tiles64 fzero (instant hundredth 178) tr /\ length us = 178%nat /\ served hundredth tr 0 us.
Proof.
  pose proof (default_still_run ieee exec_ok) as Q. set (l := [sTerminal (a_q ieee 12 10)]) in *.
  destruct (n_generate ieee (settings ieee l) true one_left one_right fzero hundredth one_sorted) as [(ord & ph)| |] eqn:E; [|contradiction|contradiction].
  destruct Q as (Q1 & Q2). exists ord, ph.
  assert (P900 : 100 <= bpow radix2 900 /\ bpow radix2 (-900) <= 1 / 1000).
  { pose proof (bpow_le radix2 7 900 ltac:(lia)). pose proof (bpow_le radix2 (-900) (-10) ltac:(lia)).
    change (bpow radix2 7) with 128 in *. change (bpow radix2 (-10)) with (/ 1024) in *. lra. }
  assert (P50 : bpow radix2 (-50) <= 1 / 1000).
  { pose proof (bpow_le radix2 (-50) (-10) ltac:(lia)). change (bpow radix2 (-10)) with (/ 1024) in *. lra. }
  destruct (f2r_val hundredth 5764607523034235 59) as (Fd & Vd); [vm_compute; reflexivity|].
  destruct (f2r_val (settings ieee l q_still) 7205759403792794 56) as (Fs & Vs); [vm_compute; reflexivity|].
  destruct (f2r_val (settings ieee l q_terminal) 5404319552844595 52) as (Ft & Vt); [vm_compute; reflexivity|].
  destruct (f2r_val (settings ieee l q_maxStep) 5629499534213120 49) as (Fm & Vm); [vm_compute; reflexivity|].
  destruct (f2r_val (fmul (settings ieee l q_share) (settings ieee l q_maxStep)) 5629499534213120 50) as (_ & Vx); [vm_compute; reflexivity|].
  destruct (f2r_val (fmul (settings ieee l q_share) (settings ieee l q_nomStep)) 4503599627370496 52) as (_ & Vn); [vm_compute; reflexivity|].
  cbn [Zpower_pos Pos.iter Z.mul Pos.mul] in Vd, Vs, Vt, Vm, Vx, Vn.
  destruct (C90_after_the_phases l true one_left one_right fzero hundredth one_sorted ord ph) as (_ & K); auto.
  - apply Forall_cons; [|apply Forall_nil]. split; [|exact Logic.I]. cbn [args In]. intros x [<-|[]] K.
    assert (Q : is_nan (a_q ieee 12 10) = false) by (vm_compute; reflexivity). rewrite K in Q. discriminate.
  - intros x Hx. assert (N : forallb (fun y => String.eqb (n_name y) "left" || String.eqb (n_name y) "right") one_sorted = true) by (vm_compute; reflexivity).
    rewrite forallb_forall in N. specialize (N x Hx). apply orb_prop in N. destruct N as [N|N]; apply String.eqb_eq in N; [left|right]; exact N.
  - rewrite Vs. lra.
  - rewrite Vd. lra.
  - rewrite Vm. lra.
  - rewrite Vt. lra.
  - rewrite Q2. lia.
  - destruct K as (tr & us & K1 & K2 & K3 & K4).
    + constructor.
      * rewrite Q1. cbn [last]. lia.
      * rewrite Q1. repeat constructor; lia.
      * intros _. rewrite Vd, Vt, Vx, Vn. lra.
      * intros _ n1 n2. rewrite Q1. cbn [length Nat.sub nth_error]. intros E1 E2. injection E1 as <-. injection E2 as <-.
        rewrite Vs. rewrite INR_IZR_INZ. cbn [Nat.sub Z.of_nat Pos.of_succ_nat Pos.succ]. lra.
    + exists tr, us. rewrite Q2 in K2, K3. auto.
Qed.

(** ** C91: the phases, whatever the arithmetic *)
(** Doubles with NaN and infinities, any settings, any order of the steps: if the phases are returned then the shift
    instants begin at 0, never decrease, and there are two for each planned step and one at the end; both feet have a
    phase for each sample up to the last instant; and the phases are those that the instants describe. *)
Theorem C91_phases_any_arithmetic : forall (N : Type) (A : arith N) s pause left right init dT srt ord ph,
  n_generate A s pause left right init dT srt = Ok (ord, ph) ->
  Permutation ord srt /\ (2 <= length ord)%nat
  /\ hd_error (ph_shift ph) = Some 0%nat /\ StronglySorted le (ph_shift ph) /\ length (ph_shift ph) = (2 * length ord - 2)%nat
  /\ length (ph_left ph) = last (ph_shift ph) 0%nat /\ length (ph_right ph) = last (ph_shift ph) 0%nat
  /\ Forall2 complementary (ph_left ph) (ph_right ph)
  /\ exists last_left, let moves := map n_left (skipn 2 ord) in
     ph_left ph = drawn 0 moves (tl (ph_shift ph)) last_left
     /\ ph_right ph = drawn 0 (map negb moves) (tl (ph_shift ph)) (negb last_left).
Proof.
  intros N A s pause left right init dT srt ord ph Hg.
  destruct (generate_shape _ _ _ _ _ _ _ _ _ _ _ Hg) as (P & L2 & bs & w & E1 & E2 & E3 & E4 & E5 & E6).
  assert (EP : planned_of N ord = skipn 2 ord) by (unfold planned_of; destruct ord as [|? [|? ord']]; reflexivity).
  assert (LP : length (map n_left (planned_of N ord)) = (length ord - 2)%nat) by (rewrite map_length, EP, skipn_length; auto).
  split; auto. split; auto. split; [rewrite E1; reflexivity|]. split; auto. split; [rewrite E1; cbn [length]; rewrite E2; lia|].
  assert (S4 : StronglySorted le (0%nat :: bs)) by (rewrite <- E1; exact E4).
  split. { rewrite E5, drawn_length; [|auto|right; rewrite LP, E2; lia]. rewrite E1, last_shift. lia. }
  split. { rewrite E6, drawn_length; [|auto|right; rewrite map_length, LP, E2; lia]. rewrite E1, last_shift. lia. }
  split. { rewrite E5, E6. apply drawn_compl. }
  exists w. rewrite E1. cbn [tl]. rewrite <- EP. auto.
Qed.
Print Assumptions C91_phases_any_arithmetic.

(** A walk with NaN for both durations of a step, which the setter accepts. *)
Lemma nan_run : forall A, A = exec ->
  match n_generate A (settings A [sPause fnan fnan]) true one_left one_right fzero hundredth one_sorted with
  | Ok (o, p) => ph_shift p = [0; 29; 58; 158]%nat
  | _ => False
  end.
Proof. intros A ->. vm_compute. reflexivity. Qed.
Example C91_example : exists ord ph,
  settings ieee [sPause fnan fnan] q_maxStep = fnan
  /\ n_generate ieee (settings ieee [sPause fnan fnan]) true one_left one_right fzero hundredth one_sorted = Ok (ord, ph)
  /\ ph_shift ph = [0; 29; 58; 158]%nat
  /\ drawn 0 [false] [29; 58; 158]%nat true = repeat SwitchIn 29 ++ repeat Stance 29 ++ repeat SwitchOut 100.
Proof.
  pose proof (nan_run ieee exec_ok) as Q.
  destruct (n_generate ieee (settings ieee [sPause fnan fnan]) true one_left one_right fzero hundredth one_sorted) as [(ord & ph)| |]; [|contradiction|contradiction].
  exists ord, ph. split; [vm_compute; reflexivity|]. split; auto.
Qed.
