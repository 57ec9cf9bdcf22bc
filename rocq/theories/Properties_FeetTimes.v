(** C95: the feet and the height of the CoM in doubles. *)
From Coq Require Import String Reals ZArith List Bool Lia Lra Sorting.Sorted Sorting.Permutation Floats.SpecFloat.
From Flocq Require Import Core IEEE754.BinarySingleNaN.
From Verif Require Import Prelude Rounding FootPrint GenPhases GenSpec FeetTraj FeetProofs FeetSpline CoMHeight RoundedGen RoundedGenSpec RoundedGenProofs2 RoundedGenProofs3
  Doubles DoublesGen DoublesSpec DoublesProofs DoublesProofs2 DoublesProofs3 DoublesProofs4 DoublesExec AnyArithSpec AnyArithProofs DcmTimesSpec DcmTimesProofs ZmpTimes ZmpTimesSpec ZmpTimesProofs
  FeetTimes FeetTimesSpec FeetTimesProofs FeetTimesProofs2 FeetTimesProofs3 FeetTimesExact Properties_Doubles Properties_DcmTimes Properties_ZmpTimes.
Import ListNotations.
Open Scope R_scope.

(** With exact arithmetic the model has the outcomes and the numbers of samples of FeetTraj.v, FeetSpline.v and
    CoMHeight.v, and interpolates at the same times. *)
Theorem C95_exact_model : forall (s : field -> R) (c : feetcfg) (h : hcfg) dT ph shift steps spl2 spl3 spl, 0 < dT ->
  (forall e, In e (tl shift) -> (e <= length ph)%nat) ->
  s q_apex = f_apex c -> 0 < f_apex c < 1 -> s q_height = f_height c -> s q_com = h_nom h ->
  rmap (@length _) (j_foot reals whole_reals s dT shift ph (length steps)) = rmap (@length _) (interpolate_foot c dT shift ph steps)
  /\ rmap (@length _) (c_foot reals s dT shift ph (length steps)) = rmap (@length _) (spline_foot spl2 spl3 c dT shift ph steps)
  /\ rmap (@length _) (m_height reals s dT shift ph) = rmap (@length _) (height_compute spl h dT ph shift)
  /\ forall n i, (i + n <= length ph)%nat -> j_swing reals whole_reals (f_apex c) dT ph n i = Ok (map (swing_time (f_apex c) dT n) (seq 0 n)).
Proof.
  intros s c h dT ph shift steps spl2 spl3 spl Hd Hs Ea Ha Eh Ec. unfold j_foot, interpolate_foot, c_foot, spline_foot, m_height, height_compute, below0.
  cbn [a_lt reals]. rewrite c0_reals, Ea, Eh, Ec. split; [|split; [|split]].
  - destruct (Rltb (f_height c) 0) eqn:E; auto. apply loop_feet; auto. intros n i s0 s1 Hi. rewrite jerk_exact by auto. cbn [rmap]. rewrite map_length, seq_length.
    assert (K : rmap (@length _) (swing_minjerk c dT n s0 s1) = Ok n); [|symmetry; exact K]. destruct (swing_ok c dT n s0 s1) as (out' & Eo' & Lo' & _); auto.
    { split; auto. left. apply Rltb_false in E. lra. }
    rewrite Eo'. cbn [rmap]. congruence.
  - destruct (Rltb (f_height c) 0); auto. apply loop_feet; auto. intros n i s0 s1 _. apply cubic_exact; auto.
  - destruct (Rltb (h_nom h) 0); auto. apply loop_height; auto.
  - intros n i Hi. apply jerk_exact; auto.
Qed.
Print Assumptions C95_exact_model.

(** A foot with steps enough for its swings is interpolated completely by either generator, every time inside its
    interpolation; with fewer steps the generators fail.  The cubic splines need an apex that is not tiny. *)
Theorem C95_feet : forall (s : field -> f64) dT ph shift st,
  fin dT = true /\ bpow radix2 (-900) <= f2r dT <= bpow radix2 900 -> (Z.of_nat (length ph) <= 2 ^ 40)%Z -> cuts ph shift ->
  lt64 fzero (s q_apex) /\ lt64 (s q_apex) f1 -> le64 fzero (s q_height) -> (0 < st)%nat ->
  let j := j_foot ieee whole_ieee s dT shift ph st in let c := c_foot ieee s dT shift ph st in
  ((swings ph shift < st)%nat -> exists out, j = Ok out /\ length out = length ph /\ unit_times out /\ moves_in is_swing ph shift out)
  /\ ((st <= swings ph shift)%nat -> j = Fail)
  /\ (bpow radix2 (-100) <= f2r (s q_apex) ->
      ((swings ph shift < st)%nat -> exists out, c = Ok out /\ length out = length ph /\ evaluated_inside out /\ moves_in is_swing ph shift out)
      /\ ((st <= swings ph shift)%nat -> c = Fail)).
Proof.
  intros s dT ph shift st Hd Hn (C1 & C2 & C3 & C4) Ha Hh Hst j c. destruct shift as [|z ends]; [discriminate|]. cbn in C1. injection C1 as ->.
  assert (B0 : below0 ieee (s q_height) = false).
  { unfold below0. cbn [a_lt ieee]. rewrite c0_zero. destruct (le64_number _ _ Hh). apply le64_inv in Hh. rewrite blt_key by auto. unfold Rltb. destruct (Rlt_dec _ _); auto. lra. }
  unfold j, c, j_foot, c_foot. rewrite B0. cbn [tl].
  assert (J : forall n i, (0 < n)%nat -> (i + n <= length ph)%nat -> exists out, j_swing ieee whole_ieee (s q_apex) dT ph n i = Ok out /\ length out = n /\ forall x, In x out -> good x)
    by (intros n i H1 H2; apply jerk_ok; auto).
  split; [|split].
  - intros H. destruct (feet_loop_ok ph _ _ J ends 0%nat st C2 C4 H) as (out & E & L & G & M). exists out. split; auto. split; [rewrite L; lia|]. split.
    + intros x z Hx. exact (G (x, z) Hx).
    + intros i a b k p x Ea Eb Hk Ep Es. apply (M i a b k p x); auto. rewrite Nat.sub_0_r. exact Es.
  - intros H. apply (feet_loop_fails ph _ _ J); auto.
  - intros Lo. assert (Cq : forall n i, (0 < n)%nat -> (i + n <= length ph)%nat -> exists out, c_swing ieee (s q_apex) dT n i = Ok out /\ length out = n /\ forall x, In x out -> inside x)
      by (intros n i H1 H2; apply (cubic_ok (dT) (s q_apex) Hd ph Hn n i H1 H2 Ha Lo)).
    split.
    + intros H. destruct (feet_loop_ok ph _ _ Cq ends 0%nat st C2 C4 H) as (out & E & L & G & M). exists out. split; auto. split; [rewrite L; lia|]. split.
      * intros x z Hx. exact (G (x, z) Hx).
      * intros i a b k p x Ea Eb Hk Ep Es. apply (M i a b k p x); auto. rewrite Nat.sub_0_r. exact Es.
    + intros H. apply (feet_loop_fails ph _ _ Cq); auto.
Qed.
Print Assumptions C95_feet.

(** The height of the CoM never fails once it is set. *)
Theorem C95_height : forall (s : field -> f64) dT ph shift,
  fin dT = true /\ bpow radix2 (-900) <= f2r dT <= bpow radix2 900 -> (Z.of_nat (length ph) <= 2 ^ 40)%Z -> cuts ph shift -> le64 fzero (s q_com) ->
  exists out, m_height ieee s dT shift ph = Ok out /\ length out = length ph /\ evaluated_inside out /\ moves_in is_single ph shift out.
Proof.
  intros s dT ph shift Hd Hn (C1 & C2 & C3 & C4) Hh. destruct shift as [|z ends]; [discriminate|]. cbn in C1. injection C1 as ->.
  assert (B0 : below0 ieee (s q_com) = false).
  { unfold below0. cbn [a_lt ieee]. rewrite c0_zero. destruct (le64_number _ _ Hh). apply le64_inv in Hh. rewrite blt_key by auto. unfold Rltb. destruct (Rlt_dec _ _); auto. lra. }
  unfold m_height. rewrite B0. cbn [tl].
  destruct (height_loop_ok ph inside dT (fun n i H1 H2 => bump_ok dT Hd ph Hn n i H1 H2) ends 0%nat C2 C4) as (out & E & L & G & M).
  exists out. split; auto. split; [rewrite L; lia|]. split.
  - intros x z Hx. exact (G (x, z) Hx).
  - intros i a b k p x Ea Eb Hk Ep Es. apply (M i a b k p x); auto. rewrite Nat.sub_0_r. exact Es.
Qed.
Print Assumptions C95_height.

(** After the phase computation with the settings of any history of setter calls: once step height and CoM height are
    set, both feet and the height are interpolated completely. *)
Theorem C95_after_the_phases : forall l pause left right init dT srt ord ph, List.Forall tame l -> let s := settings ieee l in
  Permutation srt (n_all (nf_steps left) (nf_steps right)) ->
  n_generate ieee s pause left right init dT srt = Ok (ord, ph) -> StronglySorted lt (ph_shift ph) ->
  fin dT = true -> bpow radix2 (-900) <= f2r dT <= bpow radix2 900 -> (Z.of_nat (length (ph_left ph)) <= 2 ^ 40)%Z ->
  let n := length (ph_left ph) in let nl := length (nf_steps left) in let nr := length (nf_steps right) in
  (s q_height <> fm1 ->
     (exists a b, j_foot ieee whole_ieee s dT (ph_shift ph) (ph_left ph) nl = Ok a /\ j_foot ieee whole_ieee s dT (ph_shift ph) (ph_right ph) nr = Ok b
        /\ length a = n /\ length b = n /\ unit_times a /\ unit_times b
        /\ moves_in is_swing (ph_left ph) (ph_shift ph) a /\ moves_in is_swing (ph_right ph) (ph_shift ph) b)
     /\ (bpow radix2 (-100) <= f2r (s q_apex) ->
         exists a b, c_foot ieee s dT (ph_shift ph) (ph_left ph) nl = Ok a /\ c_foot ieee s dT (ph_shift ph) (ph_right ph) nr = Ok b
           /\ length a = n /\ length b = n /\ evaluated_inside a /\ evaluated_inside b
           /\ moves_in is_swing (ph_left ph) (ph_shift ph) a /\ moves_in is_swing (ph_right ph) (ph_shift ph) b))
  /\ (s q_com <> fm1 -> exists h, m_height ieee s dT (ph_shift ph) (ph_left ph) = Ok h /\ length h = n /\ evaluated_inside h
        /\ moves_in is_single (ph_left ph) (ph_shift ph) h).
Proof.
  intros l pause left right init dT srt ord ph Hl s Hp Hg Hst Fd Hd Hn n nl nr. pose proof (C82_ranges l Hl) as V. fold s in V.
  destruct (C91_phases_any_arithmetic _ _ _ _ _ _ _ _ _ _ _ Hg) as (P & L2 & Hh & _ & Ls & LL & LR & _).
  destruct (generate_swings _ _ _ _ _ _ _ _ _ _ _ Hg Hp Hst) as (SL & SR).
  assert (Lsh : (2 <= length (ph_shift ph))%nat) by (rewrite Ls; lia).
  assert (CL : cuts (ph_left ph) (ph_shift ph)) by (unfold cuts; auto).
  assert (CR : cuts (ph_right ph) (ph_shift ph)) by (unfold cuts; rewrite LR; auto).
  assert (EqL : length (ph_right ph) = n) by (unfold n; congruence). split.
  - intros Nh. assert (Hs : le64 fzero (s q_height)) by (destruct (v_height _ V); [contradiction|auto]).
    destruct (C95_feet s dT (ph_left ph) (ph_shift ph) nl (conj Fd Hd) Hn CL (v_apex _ V) Hs ltac:(unfold nl; lia)) as (A1 & _ & A3).
    destruct (C95_feet s dT (ph_right ph) (ph_shift ph) nr (conj Fd Hd) ltac:(rewrite EqL; exact Hn) CR (v_apex _ V) Hs ltac:(unfold nr; lia)) as (B1 & _ & B3).
    destruct (A1 SL) as (a & Ea & La & Ua & Ma). destruct (B1 SR) as (b & Eb & Lb & Ub & Mb). split.
    + exists a, b. rewrite EqL in Lb. do 4 (split; [assumption|]). do 3 (split; [assumption|]). assumption.
    + intros Lo. destruct (proj1 (A3 Lo) SL) as (a' & Ea' & La' & Ua' & Ma'). destruct (proj1 (B3 Lo) SR) as (b' & Eb' & Lb' & Ub' & Mb'). exists a', b'. rewrite EqL in Lb'.
      do 4 (split; [assumption|]). do 3 (split; [assumption|]). assumption.
  - intros Nc. apply C95_height; auto. destruct (v_com _ V) as [|(? & _)]; [contradiction|auto].
Qed.
Print Assumptions C95_after_the_phases.

(** The smallest positive apex time is accepted by setFootApexTime, but a swing of less than half a second then has
    coinciding times: the cubic splines refuse the whole walk. *)
Definition tiny_apex : list (setter f64) := [sHeight (a_q ieee 5 100); sCom (a_q ieee 5 10) (a_q ieee 1 100); sApex (fmake 1 (-1074))].
Lemma tiny_run : forall A, A = exec ->
  match n_generate A (settings A tiny_apex) true one_left one_right fzero hundredth one_sorted with
  | Ok (o, p) => ph_shift p = [0; 29; 58; 158]%nat
      /\ c_foot A (settings A tiny_apex) hundredth (ph_shift p) (ph_right p) (length (nf_steps one_right)) = Fail
  | _ => False
  end.
Proof. intros A ->. vm_compute. repeat split; reflexivity. Qed.
Theorem C95_tiny_apex_refuted : exists l ord ph, List.Forall tame l /\ (forall c s, In c l -> snd (setv ieee c s) = true)
  /\ n_generate ieee (settings ieee l) true one_left one_right fzero hundredth one_sorted = Ok (ord, ph)
  /\ ph_shift ph = [0; 29; 58; 158]%nat
  /\ c_foot ieee (settings ieee l) hundredth (ph_shift ph) (ph_right ph) (length (nf_steps one_right)) = Fail.
Proof.
  exists tiny_apex. pose proof (tiny_run ieee exec_ok) as Q.
  destruct (n_generate ieee (settings ieee tiny_apex) true one_left one_right fzero hundredth one_sorted) as [(ord & ph)| |]; [|contradiction|contradiction].
  destruct Q as (Q1 & Q2). exists ord, ph. split; [|split; [|split; [reflexivity|split; [exact Q1|exact Q2]]]].
  - assert (K : forallb (fun c => forallb (fun x => negb (is_nan x)) (args c)) tiny_apex = true) by (vm_compute; reflexivity). rewrite forallb_forall in K.
    apply List.Forall_forall. intros c Hc. specialize (K c Hc). rewrite forallb_forall in K. split.
    + intros x Hx E. specialize (K x Hx). rewrite E in K. discriminate.
    + destruct Hc as [<-|[<-|[<-|[]]]]; exact Logic.I.
  - assert (K : forall A, A = exec -> forall c s, In c tiny_apex -> snd (setv A c s) = true).
    { intros A -> c s [<-|[<-|[<-|[]]]]; vm_compute; reflexivity. }
    exact (K ieee exec_ok).
Qed.
Print Assumptions C95_tiny_apex_refuted.

(** setFootApexTime accepts NaN; the check of the normalized time lets NaN pass, so the feet are interpolated with it. *)
Definition nan_apex : list (setter f64) := [sHeight (a_q ieee 5 100); sApex fnan].
Lemma nan_run : forall A W, A = exec -> W = whole_exec ->
  match n_generate A (settings A nan_apex) true one_left one_right fzero hundredth one_sorted with
  | Ok (o, p) => match j_foot A W (settings A nan_apex) hundredth (ph_shift p) (ph_right p) (length (nf_steps one_right)) with
                 | Ok out => match nth_error out 29 with Some (Some (x, z)) => is_nan z = true | _ => False end
                 | _ => False
                 end
  | _ => False
  end.
Proof. intros A W -> ->. vm_compute. reflexivity. Qed.
Theorem C95_nan_apex_refuted : exists l ord ph out x, (forall c s, In c l -> snd (setv ieee c s) = true)
  /\ n_generate ieee (settings ieee l) true one_left one_right fzero hundredth one_sorted = Ok (ord, ph)
  /\ j_foot ieee whole_ieee (settings ieee l) hundredth (ph_shift ph) (ph_right ph) (length (nf_steps one_right)) = Ok out
  /\ nth_error out 29 = Some (Some (x, fnan)).
Proof.
  exists nan_apex. pose proof (nan_run ieee whole_ieee exec_ok whole_exec_ok) as Q.
  destruct (n_generate ieee (settings ieee nan_apex) true one_left one_right fzero hundredth one_sorted) as [(ord & ph)| |]; [|contradiction|contradiction].
  destruct (j_foot ieee whole_ieee (settings ieee nan_apex) hundredth (ph_shift ph) (ph_right ph) (length (nf_steps one_right))) as [out| |] eqn:E; [|contradiction|contradiction].
  destruct (nth_error out 29) as [[(x & z)|]|] eqn:En; try contradiction. assert (Ez : z = fnan) by (destruct z; try discriminate; reflexivity). subst z.
  exists ord, ph, out, x. split; [|auto].
  assert (K : forall A, A = exec -> forall c s, In c nan_apex -> snd (setv A c s) = true) by (intros A -> c s [<-|[<-|[]]]; vm_compute; reflexivity).
  exact (K ieee exec_ok).
Qed.
Print Assumptions C95_nan_apex_refuted.

(** A walk of one step at 100 Hz meets every hypothesis of [C95_after_the_phases]; the right foot swings for 29 of the
    158 samples. *)
Definition set_feet : list (setter f64) := [sHeight (a_q ieee 5 100); sCom (a_q ieee 5 10) (a_q ieee 1 100)].
Lemma feet_run : forall A, A = exec ->
  match n_generate A (settings A set_feet) true one_left one_right fzero hundredth one_sorted with
  | Ok (o, p) => ph_shift p = [0; 29; 58; 158]%nat /\ length (ph_left p) = 158%nat /\ swings (ph_right p) (ph_shift p) = 1%nat /\ nth_error (ph_right p) 29 = Some Swing
      /\ below0 A (settings A set_feet q_height) = false /\ below0 A (settings A set_feet q_com) = false
  | _ => False
  end.
Proof. intros A ->. vm_compute. repeat split; reflexivity. Qed.
Example C95_example : exists ord ph a b h, let s := settings ieee set_feet in
  n_generate ieee s true one_left one_right fzero hundredth one_sorted = Ok (ord, ph)
  /\ j_foot ieee whole_ieee s hundredth (ph_shift ph) (ph_right ph) (length (nf_steps one_right)) = Ok a
  /\ c_foot ieee s hundredth (ph_shift ph) (ph_right ph) (length (nf_steps one_right)) = Ok b
  /\ m_height ieee s hundredth (ph_shift ph) (ph_left ph) = Ok h
  /\ length a = 158%nat /\ length b = 158%nat /\ length h = 158%nat /\ unit_times a /\ evaluated_inside b /\ evaluated_inside h
  /\ (forall x, nth_error a 40 = Some x -> x <> None).
Proof.
  pose proof (feet_run ieee exec_ok) as Q.
  destruct (n_generate ieee (settings ieee set_feet) true one_left one_right fzero hundredth one_sorted) as [(ord & ph)| |] eqn:E; [|contradiction|contradiction].
  destruct Q as (Q1 & Q2 & Q3 & Q4 & Q5 & Q6). exists ord, ph.
  assert (P900 : 100 <= bpow radix2 900 /\ bpow radix2 (-900) <= 1 / 1000 /\ bpow radix2 (-100) <= / 1024).
  { pose proof (bpow_le radix2 7 900 ltac:(lia)). pose proof (bpow_le radix2 (-900) (-10) ltac:(lia)). pose proof (bpow_le radix2 (-100) (-10) ltac:(lia)).
    change (bpow radix2 7) with 128 in *. change (bpow radix2 (-10)) with (/ 1024) in *. lra. }
  destruct (f2r_val hundredth 5764607523034235 59) as (Fd & Vd); [vm_compute; reflexivity|].
  destruct (f2r_val (settings ieee set_feet q_apex) 4503599627370496 53) as (Fa & Va); [vm_compute; reflexivity|].
  cbn [Zpower_pos Pos.iter Z.mul Pos.mul] in Vd, Va.
  assert (Tm : List.Forall tame set_feet).
  { assert (K : forallb (fun c => forallb (fun x => negb (is_nan x)) (args c)) set_feet = true) by (vm_compute; reflexivity). rewrite forallb_forall in K.
    apply List.Forall_forall. intros c Hc. specialize (K c Hc). rewrite forallb_forall in K. split.
    + intros x Hx Ex. specialize (K x Hx). rewrite Ex in K. discriminate.
    + destruct Hc as [<-|[<-|[]]]; exact Logic.I. }
  assert (Hm : forall x, below0 ieee x = false -> x <> fm1) by (intros x Hx ->; vm_compute in Hx; discriminate).
  destruct (C95_after_the_phases set_feet true one_left one_right fzero hundredth one_sorted ord ph) as (R1 & R2); auto.
  - rewrite Q1. repeat constructor; lia.
  - rewrite Vd. lra.
  - rewrite Q2. lia.
  - destruct (R1 (Hm _ Q5)) as ((a0 & a & _ & A2 & _ & A4 & _ & A6 & _ & A8) & R3). destruct (R3 ltac:(rewrite Va; lra)) as (b0 & b & _ & B2 & _ & B4 & _ & B6 & _).
    destruct (R2 (Hm _ Q6)) as (h & H1 & H2 & H3 & _). exists a, b, h. rewrite Q2 in *. do 9 (split; [assumption|]).
    split; [assumption|]. intros x Hx. apply (A8 1%nat 29%nat 58%nat 40%nat Swing x); auto; try lia; rewrite Q1; reflexivity.
Qed.
