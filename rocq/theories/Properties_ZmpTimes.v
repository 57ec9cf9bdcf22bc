(** C94: the ZMP generator in doubles. *)
From Coq Require Import String Reals ZArith List Bool Lia Lra Sorting.Sorted Sorting.Permutation Floats.SpecFloat.
From Flocq Require Import Core IEEE754.BinarySingleNaN.
From Verif Require Import Prelude Rounding FootPrint GenPhases GenSpec FeetTraj ZMP RoundedGen RoundedGenSpec RoundedGenProofs2 RoundedGenProofs3 Doubles DoublesGen DoublesSpec DoublesProofs
  DoublesProofs2 DoublesProofs4 DoublesExec AnyArithSpec AnyArithProofs DcmTimesSpec DcmTimesProofs ZmpTimes ZmpTimesSpec ZmpTimesProofs ZmpTimesProofs2 ZmpTimesProofs3 ZmpTimesExact
  Properties_Doubles Properties_DcmTimes.
Import ListNotations.
Open Scope R_scope.

(** With exact arithmetic the model has the outcomes and the numbers of samples of ZMP.v, and visits the same steps. *)
Theorem C94_exact_model : forall spl Z dT ph shift zs zw w0, 0 < dT -> 0 <= z_end Z -> 0 <= z_nom Z ->
  (forall e, In e (tl shift) -> (e <= length ph)%nat) ->
  rmap (@length _) (z_weight reals whole_reals (z_pause Z) (z_max Z) (z_nom Z) (z_end Z) dT ph shift) = rmap (@length _) (foot_weight spl Z dT ph w0 shift)
  /\ rmap (@length _) (z_local reals whole_reals (z_pause Z) (z_max Z) (z_nom Z) (z_end Z) dT ph shift) = rmap (@length _) (local_zmp spl Z dT ph zs zw shift)
  /\ (forall ord n t i, z_seek reals (map bare ord) n t i = seek ord n t i /\ z_named (map bare ord) n i = last_named ord n i)
  /\ forall init s1 oldL oldR ord nameL nameR wl wr zl zr n, length wl = n -> length wr = n -> length zl = n -> length zr = n ->
     rmap (@length _) (z_global reals init dT (map bare ord) nameL nameR n) = rmap (@length _) (global_zmp spl init dT s1 oldL oldR ord nameL nameR wl wr zl zr).
Proof.
  intros spl Z dT ph shift zs zw w0 Hd He Hn Hs. destruct (times_exact spl Z dT ph Hd He Hn shift zs zw w0 Hs) as (A & B).
  repeat split; auto; intros; [apply seek_exact|apply named_exact|apply steps_exact; auto].
Qed.
Print Assumptions C94_exact_model.

(** The weights never leave their buffers.  They are complete unless a spline is refused, which needs a pause and a
    nominal switch below the sampling time; every spline is evaluated inside its domain. *)
Theorem C94_weights : forall dT pause mx nom es ph shift, z_limits dT pause mx nom es (length ph) -> cuts ph shift ->
  let w := z_weight ieee whole_ieee pause mx nom es dT ph shift in
  w <> UB
  /\ (forall out, w = Ok out -> length out = length ph /\ evaluated_inside out)
  /\ ((pause = true -> f2r dT <= f2r nom) -> exists out, w = Ok out).
Proof.
  intros dT pause mx nom es ph shift lim cut w. destruct (weight_all dT mx nom es pause ph shift lim cut) as (A & B). fold w in A, B. split; [|split].
  - destruct A as [A|(out & A & _)]; rewrite A; discriminate.
  - intros out E. destruct A as [A|(out' & A & A1 & A2)]; rewrite A in E; [discriminate|]. injection E as <-. auto.
  - intros H. destruct (B H) as (out & E & _). eauto.
Qed.
Print Assumptions C94_weights.

(** The local ZMP of a foot writes outside its buffers exactly when the walk has a step, the foot lifts in the last
    phase, there is no pause in it and its number of samples comes out too large; otherwise it is complete and every
    spline is evaluated inside its domain. *)
Theorem C94_overrun_iff : forall dT pause mx nom es ph shift, z_limits dT pause mx nom es (length ph) -> cuts ph shift ->
  let r := z_local ieee whole_ieee pause mx nom es dT ph shift in let n := (length ph - last_begin shift)%nat in
  (r = UB <-> (2 < length shift)%nat /\ nth_error ph (last_begin shift) = Some SwitchOut /\ ~ paused dT pause mx nom es n /\ excess dT n)
  /\ (r = UB \/ exists out, r = Ok out /\ length out = length ph /\ evaluated_inside out).
Proof. intros dT pause mx nom es ph shift lim cut. exact (local_all dT mx nom es pause ph shift lim cut). Qed.
Print Assumptions C94_overrun_iff.

(** A sampling time that is a power of two has no such number of samples. *)
Theorem C94_powers_of_two : forall dT e n, fin dT = true -> f2r dT = bpow radix2 e -> (-900 <= e <= 900)%Z -> (Z.of_nat n <= 2 ^ 50)%Z -> ~ excess dT n.
Proof.
  intros dT e n Fd Vd He Hn. assert (Hd : bpow radix2 (-900) <= f2r dT <= bpow radix2 900) by (rewrite Vd; split; apply bpow_le; lia).
  assert (Lim : z_limits dT false fzero fzero fzero (length (@nil phase))) by (constructor; auto; try discriminate; cbn; lia).
  rewrite (excess_val dT _ _ _ _ _ Lim n Hn). unfold T. rewrite Vd. pose proof (bpow_gt_0 radix2 e) as P. rewrite INR_IZR_INZ.
  assert (H53 : (Z.abs (Z.of_nat n) < 2 ^ 53)%Z) by (assert (2 ^ 50 < 2 ^ 53)%Z by (apply Z.pow_lt_mono_r; lia); lia).
  rewrite (b64_fix (IZR (Z.of_nat n) * bpow radix2 e)) by (apply is_b64_dyadic; lia).
  replace (IZR (Z.of_nat n) * bpow radix2 e / bpow radix2 e) with (IZR (Z.of_nat n)) by (field; lra).
  rewrite b64_fix by (apply is_b64_int; lia). lra.
Qed.
Print Assumptions C94_powers_of_two.

(** After the phase computation, with the settings of any history of setter calls: whether the ZMP generator writes
    outside its buffers depends on the final switch, the sampling time and the pauses only.  Otherwise all samples are
    written, every spline is evaluated inside its domain, and the step used at each instant is the last one of the foot
    that has landed. *)
Theorem C94_after_the_phases : forall l pause left right init dT srt ord ph, List.Forall tame l ->
  let s := settings ieee l in let mx := fmul (s q_share) (s q_maxStep) in let nom := fmul (s q_share) (s q_nomStep) in
  Permutation srt (n_all (nf_steps left) (nf_steps right)) ->
  (forall x, In x (nf_steps left) -> number (fst x) /\ snd x = nf_name left) ->
  (forall x, In x (nf_steps right) -> number (fst x) /\ snd x = nf_name right) ->
  n_generate ieee s pause left right init dT srt = Ok (ord, ph) -> StronglySorted lt (ph_shift ph) ->
  fin init = true -> 0 <= f2r init <= bpow radix2 960 ->
  fin dT = true -> bpow radix2 (-900) <= f2r dT <= bpow radix2 900 -> (Z.of_nat (length (ph_left ph)) <= 2 ^ 50)%Z ->
  (pause = true -> fin (s q_maxStep) = true /\ f2r (s q_maxStep) <= bpow radix2 900 /\ fin (s q_terminal) = true /\ f2r (s q_terminal) <= bpow radix2 900
     /\ f2r dT <= f2r nom) ->
  let run := z_compute ieee whole_ieee s pause init dT (nf_name left) (nf_name right) ord ph in
  exists n, a_round ieee (fdiv (s q_terminal) dT) = Ok n
    /\ (run = UB <-> (2 < length ord)%nat /\ ~ paused dT pause mx nom (s q_terminal) n /\ excess dT n)
    /\ (run = UB \/ exists w, run = Ok w
        /\ length (zw_weight w) = length (ph_left ph) /\ length (zw_left w) = length (ph_left ph)
        /\ length (zw_right w) = length (ph_left ph) /\ length (zw_steps w) = length (ph_left ph)
        /\ evaluated_inside (zw_weight w) /\ evaluated_inside (zw_left w) /\ evaluated_inside (zw_right w)
        /\ forall i a b, nth_error (zw_steps w) i = Some (a, b) ->
           last_landed ord (nf_name left) (fadd (instant dT i) init) a /\ last_landed ord (nf_name right) (fadd (instant dT i) init) b).
Proof.
  intros l pause left right init dT srt ord ph Hl s mx nom Hp NL NR Hg Hst Fi Hi Fd Hd Hn Hpz run.
  pose proof (C82_ranges l Hl) as V. fold s in V.
  destruct (last_phase_length _ _ _ _ _ _ _ _ _ _ _ Hg) as (n & Rn & Ln). exists n. split; [exact Rn|].
  destruct (C91_phases_any_arithmetic _ _ _ _ _ _ _ _ _ _ _ Hg) as (P & L2 & Hh & _ & Ls & LL & LR & Cm & w & E5 & E6).
  assert (Lim : z_limits dT pause mx nom (s q_terminal) (length (ph_left ph))).
  { assert (Btw : forall x b, fin b = true -> le64 fzero x -> le64 x b -> fin x = true /\ 0 <= f2r x <= f2r b).
    { intros x b Fb A B. pose proof (le64_inv _ _ A) as A'. pose proof (le64_inv _ _ B) as B'. pose proof (fin_key b Fb).
      change (key fzero) with 0 in A'. rewrite (key_fin b Fb) in *.
      destruct (le64_number _ _ A) as (_ & Nx). assert (Fx : fin x = true).
      { pose proof (bpow_gt_0 radix2 1024). destruct (number_cases x Nx) as [F|[E|E]]; [exact F| |]; exfalso; rewrite E in A', B'; cbn [key finf] in A', B'; lra. }
      rewrite (key_fin x Fx) in *. split; [exact Fx|lra]. }
    destruct f1_ok as (F1 & V1). destruct (Btw _ _ F1 (proj1 (v_share _ V)) (proj2 (v_share _ V))) as (Fsh & Hsh). rewrite V1 in Hsh.
    assert (Lm : le64 fzero (s q_nomStep)) by (pose proof (lt64_inv _ _ (proj1 (v_pause _ V))); apply le64_key; [discriminate|apply (lt64_number _ _ (proj1 (v_pause _ V)))|lra]).
    assert (Mul : forall x, fin x = true -> 0 <= f2r x <= bpow radix2 900 -> fin (fmul (s q_share) x) = true /\ 0 <= f2r (fmul (s q_share) x) <= bpow radix2 900).
    { intros x Fx Hx. assert (B : 0 <= f2r (s q_share) * f2r x <= bpow radix2 900) by nra.
      destruct (fmul_ok _ _ Fsh Fx) as (A1 & A2). { rewrite Rabs_pos_eq by lra. pose proof pow_top. pose proof (bpow_le radix2 900 1023 ltac:(lia)). lra. }
      split; auto. rewrite A2. rewrite <- b64_0. rewrite <- (b64_fix (bpow radix2 900)) by (replace (bpow radix2 900) with (IZR 1 * bpow radix2 900) by ring; apply is_b64_dyadic; lia).
      split; apply (r_mono _ b64_rounding); lra. }
    constructor; auto; intros Ep; destruct (Hpz Ep) as (Fm & Hm & Ft & Ht & _);
      destruct (Btw _ _ Fm Lm (proj2 (v_pause _ V))) as (Fnm & Hnm).
    - apply (Mul _ Fm). lra.
    - apply (Mul _ Fnm). lra.
    - split; auto. pose proof (lt64_inv _ _ (v_terminal _ V)) as K. rewrite (key_fin _ Ft) in K. change (key fzero) with 0 in K. lra. }
  assert (Lsh : (2 <= length (ph_shift ph))%nat) by (rewrite Ls; lia).
  assert (CL : cuts (ph_left ph) (ph_shift ph)) by (unfold cuts; auto).
  assert (CR : cuts (ph_right ph) (ph_shift ph)) by (unfold cuts; rewrite LR; auto).
  assert (EqL : length (ph_right ph) = length (ph_left ph)) by congruence.
  destruct (C94_weights dT pause mx nom (s q_terminal) (ph_left ph) (ph_shift ph) Lim CL) as (_ & W2 & W3).
  destruct (W3 (fun Ep => proj2 (proj2 (proj2 (proj2 (Hpz Ep)))))) as (ws & Ew). destruct (W2 ws Ew) as (Lw & Iw).
  destruct (C94_overrun_iff dT pause mx nom (s q_terminal) (ph_left ph) (ph_shift ph) Lim CL) as (OL & FL).
  assert (Lim' : z_limits dT pause mx nom (s q_terminal) (length (ph_right ph))) by (rewrite EqL; exact Lim).
  destruct (C94_overrun_iff dT pause mx nom (s q_terminal) (ph_right ph) (ph_shift ph) Lim' CR) as (OR & FR).
  rewrite EqL in OR, FR. assert (En : (length (ph_left ph) - last_begin (ph_shift ph) = n)%nat) by (rewrite LL, Ln; lia). rewrite En in OL, OR.
  assert (Lo : (2 < length (ph_shift ph) <-> 2 < length ord)%nat) by (rewrite Ls; lia).
  assert (Sw : (2 < length ord)%nat -> nth_error (ph_left ph) (last_begin (ph_shift ph)) = Some SwitchOut \/ nth_error (ph_right ph) (last_begin (ph_shift ph)) = Some SwitchOut).
  { intros H2. destruct (ph_shift ph) as [|z bs] eqn:Esh; [discriminate|]. cbn in Hh. injection Hh as ->. cbn [tl] in E5, E6.
    assert (Lb : length bs = (2 * length (map n_left (skipn 2 ord)) + 1)%nat) by (rewrite map_length, skipn_length; cbn [length] in Ls; lia).
    destruct (last_phase_switch (map n_left (skipn 2 ord)) bs 0 w Lb Hst) as (_ & m & Em).
    rewrite Nat.sub_0_r in Em. assert (Eb : nth (length bs - 1) (0%nat :: bs) 0%nat = last_begin (0%nat :: bs)) by reflexivity.
    rewrite Eb in Em. rewrite <- E5 in Em. destruct m; [right|left; exact Em].
    assert (K : forall (a b : list phase) i, Forall2 complementary a b -> nth_error a i = Some SwitchIn -> nth_error b i = Some SwitchOut).
    { clear. intros a b i H. revert i. induction H as [|x y a b Hxy H IH]; intros [|i] E; cbn in *; try discriminate; auto.
      injection E as ->. destruct y; destruct Hxy as [(? & ?)|[(? & ?)|[(? & ?)|(? & ?)]]]; try discriminate; auto. }
    eapply K; eauto. }
  assert (Step : exists us, z_global ieee init dT ord (nf_name left) (nf_name right) (length (ph_left ph)) = Ok us /\ length us = length (ph_left ph)
    /\ forall i a b, nth_error us i = Some (a, b) -> last_landed ord (nf_name left) (now init dT i) a /\ last_landed ord (nf_name right) (now init dT i) b).
  { assert (Tag : forall lf (q : list (f64 * string)) k x, In x (n_tag lf k q) -> exists y, In y q /\ n_time x = fst y /\ n_name x = snd y).
    { induction q as [|(t & m) q IH]; intros k x Hx; cbn in Hx; [contradiction|]. destruct Hx as [<-|Hx]; [exists (t, m); cbn; auto|]. destruct (IH _ _ Hx) as (y & ? & ?). exists y. cbn; auto. }
    assert (Ho : forall x, In x ord <-> In x (n_all (nf_steps left) (nf_steps right))).
    { intros x. split; intros Hx; [eapply Permutation_in; [exact Hp|eapply Permutation_in; eauto]|eapply Permutation_in; [apply Permutation_sym; exact P|eapply Permutation_in; [apply Permutation_sym; exact Hp|exact Hx]]]. }
    assert (Gate : exists tl xl rl tr xr rr, nf_steps left = (tl, xl) :: rl /\ nf_steps right = (tr, xr) :: rr /\ le64 tl init /\ le64 tr init).
    { pose proof Hg as G. unfold n_generate in G.
      destruct (Nat.ltb _ _); [discriminate|]. destruct (Nat.ltb _ _); [discriminate|]. destruct (String.eqb _ _); [discriminate|].
      destruct (atmost0 ieee dT); [discriminate|]. destruct (nf_steps left) as [|(tl & xl) rl]; [discriminate|]. destruct (nf_steps right) as [|(tr & xr) rr]; [discriminate|].
      exists tl, xl, rl, tr, xr, rr. split; auto. split; auto. destruct (NL (tl, xl) (or_introl eq_refl)) as (N1 & _). destruct (NR (tr, xr) (or_introl eq_refl)) as (N2 & _). cbn [fst] in N1, N2.
      pose proof (fin_number init Fi) as N3. cbn [a_lt ieee] in G. destruct (Bltb tl tr) eqn:C.
      - destruct (Bltb init tr) eqn:D; [discriminate|]. apply t_ord in D; auto. split; auto. eapply le64_trans; [|exact D].
        rewrite blt_key in C by auto. apply le64_key; auto. revert C. rcases; intros; [lra|discriminate].
      - destruct (Bltb init tl) eqn:D; [discriminate|]. apply t_ord in D; auto. split; auto. apply t_ord in C; auto. eapply le64_trans; eauto. }
    destruct Gate as (tl & xl & rl & tr & xr & rr & G1 & G2 & G3 & G4).
    apply (global_ok ord).
    - intros x Hx. apply Ho in Hx. apply in_app_or in Hx. destruct Hx as [Hx|Hx]; apply Tag in Hx; destruct Hx as (y & Hy & -> & _); [apply NL|apply NR]; exact Hy.
    - split; auto.
    - split; auto.
    - destruct (NL (tl, xl)) as (_ & Q). { rewrite G1. left. auto. } exists (MkN true 0 tl xl). cbn [n_name n_time]. split; [|split; auto]. apply Ho. apply in_or_app. left. rewrite G1. left. auto.
    - destruct (NR (tr, xr)) as (_ & Q). { rewrite G2. left. auto. } exists (MkN false 0 tr xr). cbn [n_name n_time]. split; [|split; auto]. apply Ho. apply in_or_app. right. rewrite G2. left. auto.
    - exact Hn. }
  destruct Step as (us & Eus & Lus & Hus).
  assert (N1 : exists y, nth_error (ph_shift ph) 1 = Some y) by (clear -Lsh; destruct (ph_shift ph) as [|x [|y r]]; [exfalso; cbn in Lsh; lia|exfalso; cbn in Lsh; lia|exists y; reflexivity]). destruct N1 as (y & Ey).
  assert (Run : run = (do l <- z_local ieee whole_ieee pause mx nom (s q_terminal) dT (ph_left ph) (ph_shift ph);
                       do r <- z_local ieee whole_ieee pause mx nom (s q_terminal) dT (ph_right ph) (ph_shift ph);
                       do g <- z_global ieee init dT ord (nf_name left) (nf_name right) (length l); Ok (MkZW ws l r g))).
  { unfold run, z_compute. cbn [a_mul ieee]. fold mx nom. rewrite Ew. cbn [rbind]. rewrite Ey. reflexivity. }
  rewrite Run. clear Run run.
  destruct FL as [UL|(ol & EL & LenL & IL)].
  { rewrite UL. cbn [rbind]. split; [|left; reflexivity]. split; [|reflexivity]. intros _. apply OL in UL. rewrite Lo in UL. tauto. }
  destruct FR as [UR|(or & ER & LenR & IR)].
  { rewrite EL, UR. cbn [rbind]. split; [|left; reflexivity]. split; [|reflexivity]. intros _. apply OR in UR. rewrite Lo in UR. tauto. }
  rewrite EL, ER. cbn [rbind]. unfold zsample in *. rewrite LenL, Eus. cbn [rbind]. split.
  - split; [discriminate|]. intros (H1 & H2 & H3). exfalso. destruct (Sw H1) as [K|K].
    + rewrite EL in OL. assert (Q : Ok ol = UB) by (apply OL; rewrite Lo; auto). discriminate.
    + rewrite ER in OR. assert (Q : Ok or = UB) by (apply OR; rewrite Lo; auto). discriminate.
  - right. eexists. split; [reflexivity|]. cbn [zw_weight zw_left zw_right zw_steps]. split; [exact Lw|]. split; [exact LenL|]. split; [exact LenR|]. split; [exact Lus|]. split; [exact Iw|]. split; [exact IL|]. split; [exact IR|]. exact Hus.
Qed.
Print Assumptions C94_after_the_phases.

(** One step of the right foot to 0.58 s, sampled at 100 Hz.  With 1.12 s of final switch, which the setter accepts, the
    generator writes outside its buffers; with the default of 1 s it does not. *)
Definition longer : list (setter f64) := [sTerminal (a_q ieee 112 100)].
Lemma longer_run : forall A W, A = exec -> W = whole_exec ->
  match n_generate A (settings A longer) true one_left one_right fzero hundredth one_sorted with
  | Ok (o, p) => ph_shift p = [0; 29; 58; 170]%nat /\ z_compute A W (settings A longer) true fzero hundredth "left" "right" o p = UB
  | _ => False
  end.
Proof. intros A W -> ->. vm_compute. split; reflexivity. Qed.
Theorem C94_overrun_refuted : exists l ord ph, List.Forall tame l
  /\ (forall c s, In c l -> snd (setv ieee c s) = true)
  /\ n_generate ieee (settings ieee l) true one_left one_right fzero hundredth one_sorted = Ok (ord, ph)
  /\ ph_shift ph = [0; 29; 58; 170]%nat
  /\ z_compute ieee whole_ieee (settings ieee l) true fzero hundredth (nf_name one_left) (nf_name one_right) ord ph = UB.
Proof.
  exists longer. pose proof (longer_run ieee whole_ieee exec_ok whole_exec_ok) as Q.
  destruct (n_generate ieee (settings ieee longer) true one_left one_right fzero hundredth one_sorted) as [(ord & ph)| |]; [|contradiction|contradiction].
  destruct Q as (Q1 & Q2). exists ord, ph. split; [|split; [|split; [reflexivity|split; [exact Q1|exact Q2]]]].
  - repeat apply Forall_cons; [|apply Forall_nil]. split; cbn [args In]; try exact Logic.I. intros x [<-|[]] K.
    assert (Q : is_nan (a_q ieee 112 100) = false) by (vm_compute; reflexivity). rewrite K in Q. discriminate.
  - intros c s [<-|[]]. assert (K : forall A, A = exec -> snd (setv A (sTerminal (a_q ieee 112 100)) s) = true) by (intros A ->; vm_compute; reflexivity). exact (K ieee exec_ok).
Qed.
Print Assumptions C94_overrun_refuted.

(** At 100 Hz, the numbers of samples up to 300 that come out too large: final switches of 0.07, 0.14, 0.28, 0.56, 1.12 s and so on. *)
Example C94_bad_counts : forall A, A = exec ->
  filter (fun n => a_lt A (a_size A n) (a_div A (z_dur A hundredth n) hundredth)) (seq 0 301) = [7; 14; 28; 56; 57; 111; 112; 113; 114; 115; 201; 203; 222; 224; 226; 228; 230; 247; 249; 251; 253; 255]%nat.
Proof. intros A ->. vm_compute. reflexivity. Qed.

(** The default final switch meets every hypothesis of [C94_after_the_phases]: all 158 samples are written. *)
Lemma default_run : forall A W, A = exec -> W = whole_exec ->
  match n_generate A (settings A []) true one_left one_right fzero hundredth one_sorted with
  | Ok (o, p) => ph_shift p = [0; 29; 58; 158]%nat /\ length (ph_left p) = 158%nat /\ length o = 3%nat
                 /\ a_round A (a_div A (settings A [] q_terminal) hundredth) = Ok 100%nat
                 /\ a_lt A (a_size A 100) (a_div A (z_dur A hundredth 100) hundredth) = false
  | _ => False
  end.
Proof. intros A W -> ->. vm_compute. repeat split; reflexivity. Qed.
Example C94_example : exists ord ph w, let s := settings ieee [] in
  n_generate ieee s true one_left one_right fzero hundredth one_sorted = Ok (ord, ph)
  /\ z_compute ieee whole_ieee s true fzero hundredth "left" "right" ord ph = Ok w
  /\ length (zw_weight w) = 158%nat /\ length (zw_left w) = 158%nat /\ length (zw_right w) = 158%nat
  /\ evaluated_inside (zw_weight w) /\ evaluated_inside (zw_left w) /\ evaluated_inside (zw_right w)
  /\ forall i a b, nth_error (zw_steps w) i = Some (a, b) -> last_landed ord "right" (fadd (instant hundredth i) fzero) b.
Proof.
  pose proof (default_run ieee whole_ieee exec_ok whole_exec_ok) as Q. 
  destruct (n_generate ieee (settings ieee []) true one_left one_right fzero hundredth one_sorted) as [(ord & ph)| |] eqn:E; [|contradiction|contradiction].
  destruct Q as (Q1 & Q2 & Q3 & Q4 & Q5). exists ord, ph.
  assert (P900 : 100 <= bpow radix2 900 /\ bpow radix2 (-900) <= 1 / 1000).
  { pose proof (bpow_le radix2 7 900 ltac:(lia)). pose proof (bpow_le radix2 (-900) (-10) ltac:(lia)).
    change (bpow radix2 7) with 128 in *. change (bpow radix2 (-10)) with (/ 1024) in *. lra. }
  destruct (f2r_val hundredth 5764607523034235 59) as (Fd & Vd); [vm_compute; reflexivity|].
  destruct (f2r_val (settings ieee [] q_terminal) 4503599627370496 52) as (Ft & Vt); [vm_compute; reflexivity|].
  destruct (f2r_val (settings ieee [] q_maxStep) 5629499534213120 49) as (Fm & Vm); [vm_compute; reflexivity|].
  destruct (f2r_val (fmul (settings ieee [] q_share) (settings ieee [] q_nomStep)) 4503599627370496 52) as (_ & Vn); [vm_compute; reflexivity|].
  cbn [Zpower_pos Pos.iter Z.mul Pos.mul] in Vd, Vt, Vm, Vn.
  assert (NF : forall f n, f = one_left /\ n = "left"%string \/ f = one_right /\ n = "right"%string -> forall x, In x (nf_steps f) -> number (fst x) /\ snd x = nf_name f).
  { intros f n Hf x Hx. assert (K : forallb (fun y => negb (is_nan (fst y)) && String.eqb (snd y) (nf_name f)) (nf_steps f) = true) by (destruct Hf as [(-> & _)|(-> & _)]; vm_compute; reflexivity).
    rewrite forallb_forall in K. specialize (K x Hx). apply andb_prop in K. destruct K as (K1 & K2). split; [|apply String.eqb_eq; exact K2]. clear -K1. destruct x as (t & m). cbn [fst] in *. intros ->. discriminate. }
  destruct (C94_after_the_phases [] true one_left one_right fzero hundredth one_sorted ord ph) as (n & R1 & R2 & R3); auto.
  - apply (NF one_left "left"%string); auto.
  - apply (NF one_right "right"%string); auto.
  - rewrite Q1. repeat constructor; lia.
  - change (f2r fzero) with 0. split; [lra|apply bpow_ge_0].
  - rewrite Vd. lra.
  - rewrite Q2. lia.
  - intros _. split; auto. rewrite Vm, Vt, Vn, Vd. repeat split; auto; lra.
  - cbn [a_div ieee] in Q4. rewrite Q4 in R1. injection R1 as <-. destruct R3 as [U|(w & R3 & L1 & L2 & L3 & _ & I1 & I2 & I3 & I4)].
    + exfalso. apply R2 in U. destruct U as (_ & _ & U). unfold excess, lt64 in U. change (Bltb (fmake (Z.of_nat 100) 0) (fdiv (instant hundredth 100) hundredth) = false) in Q5. congruence.
    + exists w. rewrite Q2 in L1, L2, L3. split; auto. split; [exact R3|]. repeat (split; [auto; fail|]). intros i a b Hi. exact (proj2 (I4 i a b Hi)).
Qed.
