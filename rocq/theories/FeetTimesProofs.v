(** Proofs about the times of the feet and of the height of the CoM in doubles. *)
From Coq Require Import String Reals ZArith List Bool Lia Lra Sorting.Sorted.
From Flocq Require Import Core IEEE754.BinarySingleNaN Relative.
From Verif Require Import Prelude Rounding GenPhases RoundedGen RoundedGenSpec RoundedGenProofs2 RoundedGenProofs3 FeetTraj FeetProofs
  Doubles DoublesGen DoublesSpec DoublesProofs DoublesExec GenProofs DcmTimesSpec DcmTimesProofs ZmpTimes ZmpTimesSpec ZmpTimesProofs FeetTimes FeetTimesSpec.
Import ListNotations.
Open Scope R_scope.

(** ** Reals *)
Section Reals.
Variables d a : R.
Hypothesis d_lo : bpow radix2 (-900) <= d.
Hypothesis a_ok : 0 < a < 1.
Variable n : nat.
Hypothesis n_ok : (Z.of_nat n <= 2 ^ 40)%Z.
Notation T := (T d).
Lemma eta_small : 0 <= eta64 <= / 1152921504606846976.
Proof.
  split; [apply eta64_pos|]. unfold eta64. pose proof (bpow_le radix2 (-1074) (-60) ltac:(lia)). change (bpow radix2 (-60)) with (/ 1152921504606846976) in *.
  pose proof (bpow_gt_0 radix2 (-1074)). lra.
Qed.
Lemma T40 : forall k, (k <= n)%nat -> Rabs (T k - INR k * d) <= d / 1000.
Proof.
  intros k H. eapply Rle_trans; [apply T_err; auto|]. pose proof (d_pos d d_lo). pose proof (eta_d2 d d_lo). rewrite u64_val.
  pose proof (INR_Z k (2 ^ 40) ltac:(lia)) as K. change (IZR (2 ^ 40)) with 1099511627776 in K.
  assert (INR k * d <= 1099511627776 * d) by (apply Rmult_le_compat_r; lra). lra.
Qed.
Notation q := (b64 (INR n * a)).
Lemma na_bound : 0 <= INR n * a <= INR n /\ INR n <= 1099511627776.
Proof. pose proof (pos_INR n). pose proof (INR_Z n _ n_ok) as K. change (IZR (2 ^ 40)) with 1099511627776 in K. split; [split; [apply Rmult_le_pos; lra|nra]|lra]. Qed.
Lemma q_near : Rabs (q - INR n * a) <= / 1000.
Proof.
  destruct na_bound as (A & B). eapply Rle_trans; [apply (b64_near _ (INR n * a)); rewrite Rabs_pos_eq; lra|]. pose proof eta_small. rewrite u64_val. lra.
Qed.
Lemma q_pos : 0 <= q.
Proof. rewrite <- b64_0. apply (r_mono _ b64_rounding). apply na_bound. Qed.
Lemma q_le : q <= INR n.
Proof.
  assert (F : b64 (INR n) = INR n); [|rewrite <- F at 2; apply (r_mono _ b64_rounding); apply na_bound]. apply b64_fix. rewrite INR_IZR_INZ. apply is_b64_int. assert (2 ^ 40 <= 2 ^ 53)%Z by (apply Z.pow_le_mono_r; lia). lia.
Qed.
Lemma r_range : (0 <= Rround q <= Z.of_nat n)%Z.
Proof.
  split; [apply Rround_nonneg, q_pos|]. rewrite <- (Rround_IZR (Z.of_nat n)) by lia. apply Rround_mono. split; [apply q_pos|]. rewrite <- INR_IZR_INZ. apply q_le.
Qed.
Lemma up_real : forall k, (Z.of_nat k < Rround q)%Z -> INR k * d <= T n * a /\ d / 4 <= T n * a.
Proof.
  intros k H. assert (K : (Z.of_nat k + 1 <= Rround q)%Z) by lia. apply IZR_le in K. rewrite plus_IZR, <- INR_IZR_INZ in K.
  pose proof (Rround_bounds q q_pos) as B. pose proof q_near as Q. apply Rabs_le_inv in Q. pose proof (T40 n (le_n _)) as E. apply Rabs_le_inv in E.
  pose proof (d_pos d d_lo). pose proof (pos_INR k).
  assert (L : (INR n * a) * d - d / 1000 <= T n * a).
  { assert (INR n * d - d / 1000 <= T n) by lra. assert ((INR n * d - d / 1000) * a <= T n * a) by (apply Rmult_le_compat_r; lra).
    assert (d / 1000 * a <= d / 1000) by nra. lra. }
  assert (M : (INR k + 499 / 1000) * d <= (INR n * a) * d) by (apply Rmult_le_compat_r; lra).
  assert (0 <= INR k * d) by nra. lra.
Qed.
Lemma down_real : forall k, (Rround q <= Z.of_nat k)%Z -> (k < n)%nat ->
  T k - T (Z.to_nat (Rround q)) <= T n * b64 (1 - a) /\ d / 4 <= T n * b64 (1 - a) /\ 0 <= b64 (1 - a) <= 1.
Proof.
  intros k H1 H2. destruct r_range as (R0 & R1). pose proof (Rround_bounds q q_pos) as B. pose proof q_near as Q. apply Rabs_le_inv in Q.
  pose proof (T40 n (le_n _)) as E. pose proof (T40 k ltac:(lia)) as Ek. assert (Rn : (Z.to_nat (Rround q) <= n)%nat) by (apply Nat2Z.inj_le; rewrite Z2Nat.id by exact R0; exact R1). pose proof (T40 _ Rn) as Er. apply Rabs_le_inv in E, Ek, Er.
  rewrite (INR_IZR_INZ (Z.to_nat _)), Z2Nat.id in Er by lia. pose proof (d_pos d d_lo).
  assert (S1 : b64 (1 - a) <= 1). { assert (F : b64 1 = 1) by (apply b64_fix, (is_b64_int 1); lia). rewrite <- F at 2. apply (r_mono _ b64_rounding). lra. }
  assert (S0 : 0 <= b64 (1 - a)). { rewrite <- b64_0. apply (r_mono _ b64_rounding). lra. }
  pose proof (b64_near (1 - a) 1) as Ns. rewrite Rabs_pos_eq in Ns by lra. specialize (Ns ltac:(lra)). apply Rabs_le_inv in Ns. pose proof eta_small. rewrite u64_val in Ns.
  set (s := b64 (1 - a)) in *. destruct na_bound as (A & Nb). pose proof (pos_INR n).
  assert (K : INR k + 1 <= INR n) by (rewrite <- S_INR; apply le_INR; lia).
  assert (L1 : (INR n * d - d / 1000) * s <= T n * s) by (apply Rmult_le_compat_r; lra).
  assert (L2 : d / 1000 * s <= d / 1000) by nra.
  assert (L3 : INR n * d * (1 - a) - d / 1000 <= INR n * d * s).
  { assert (Ds : (1 - a) - / 1000000000000000 <= s) by lra.
    assert (INR n * d * ((1 - a) - / 1000000000000000) <= INR n * d * s) by (apply Rmult_le_compat_l; [apply Rmult_le_pos; lra|lra]).
    assert (INR n * d <= 1099511627776 * d) by (apply Rmult_le_compat_r; lra). nra. }
  assert (L4 : (INR k - IZR (Rround q)) * d <= (INR n - INR n * a - 499 / 1000) * d) by (apply Rmult_le_compat_r; lra).
  assert (Kr : IZR (Rround q) <= INR k) by (rewrite (INR_IZR_INZ k); apply IZR_le; auto).
  assert (0 <= (INR k - IZR (Rround q)) * d) by (apply Rmult_le_pos; lra).
  split; [|split; [|auto]]; lra.
Qed.
(** A product with a share below 1 stays below. *)
Lemma share_below : forall L, bpow radix2 (-910) <= L -> is_b64 a -> b64 (a * L) < L.
Proof.
  clear n n_ok. intros L HL Fa. pose proof (bpow_gt_0 radix2 (-910)) as P.
  assert (Ha : a <= 1 - / 9007199254740992).
  { replace (1 - / 9007199254740992) with (pred radix2 b64_exp 1).
    - apply pred_ge_gt; auto; [apply valid64|apply (is_b64_int 1); lia|lra].
    - change 1 with (bpow radix2 0) at 1. rewrite (pred_bpow radix2 b64_exp). change (bpow radix2 0) with 1. change (bpow radix2 (b64_exp 0)) with (/ 9007199254740992). reflexivity. }
  destruct (relative_error_N_FLT'_ex radix2 (-1074) 53 ltac:(reflexivity) (fun z => negb (Z.even z)) (a * L)) as (e & h & E1 & E2 & E3 & E4).
  change (b64 (a * L) = a * L * (1 + e) + h) in E4. rewrite E4. unfold u_ro in E1. change (bpow radix2 (- (53) + 1)) with (/ 4503599627370496) in E1. apply Rabs_le_inv in E1, E2.
  assert (Q : / 2 * / 4503599627370496 / (1 + / 2 * / 4503599627370496) = / 9007199254740993) by (field; lra). rewrite Q in E1.
  assert (L0 : 0 < L) by lra. apply Rmult_integral in E3. destruct E3 as [-> | ->].
  - rewrite Rplus_0_r, Rmult_1_r. assert (a * L <= (1 - / 9007199254740992) * L) by (apply Rmult_le_compat_r; lra).
    assert (H0 : bpow radix2 (-1074) < / 9007199254740992 * L).
    { apply Rlt_le_trans with (/ 9007199254740992 * bpow radix2 (-910)); [|lra]. change (/ 9007199254740992) with (bpow radix2 (-53)). rewrite <- bpow_plus. apply bpow_lt. lia. }
    pose proof (bpow_gt_0 radix2 (-1074)). lra.
  - assert (a * (1 + e) < 1). { apply Rle_lt_trans with ((1 - / 9007199254740992) * (1 + / 9007199254740993)); [apply Rmult_le_compat; lra|lra]. }
    nra.
Qed.
End Reals.

(** ** Doubles *)
Section Foot.
Variables dT apex : f64.
Hypothesis dT_ok : fin dT = true /\ bpow radix2 (-900) <= f2r dT <= bpow radix2 900.
Hypothesis apex_ok : lt64 fzero apex /\ lt64 apex f1.
Variable ph : list phase.
Hypothesis ph_ok : (Z.of_nat (length ph) <= 2 ^ 40)%Z.
Notation d := (f2r dT).
Notation a := (f2r apex).
Notation dur := (z_dur ieee dT).
Lemma pd_lo : bpow radix2 (-900) <= d. Proof. apply dT_ok. Qed.
Lemma apex_val : fin apex = true /\ 0 < a < 1.
Proof.
  destruct apex_ok as (A & B). destruct f1_ok as (F1 & V1). pose proof (lt64_inv _ _ A) as A'. pose proof (lt64_inv _ _ B) as B'. destruct (lt64_number _ _ A) as (_ & Nx).
  pose proof (bpow_gt_0 radix2 1024). rewrite (key_fin f1 F1), V1 in B'. change (key fzero) with 0 in A'.
  assert (F : fin apex = true). { pose proof (fin_key f1 F1) as K. rewrite (key_fin f1 F1), V1 in K.
    destruct (number_cases apex Nx) as [F|[E|E]]; [exact F| |]; exfalso; rewrite E in A', B'; cbn [key finf] in A', B'; lra. }
  rewrite (key_fin apex F) in *. auto.
Qed.
Lemma lim_ok : z_limits dT false fzero fzero fzero (length ph).
Proof. constructor; auto; try discriminate. assert (2 ^ 40 <= 2 ^ 50)%Z by (apply Z.pow_le_mono_r; lia). lia. Qed.
Lemma dur_val : forall n, (Z.of_nat n <= 2 ^ 40)%Z -> fin (dur n) = true /\ f2r (dur n) = T d n /\ 0 <= T d n <= bpow radix2 960.
Proof.
  intros n H. assert (2 ^ 40 <= 2 ^ 50)%Z by (apply Z.pow_le_mono_r; lia). destruct (zdur_val dT _ _ _ _ _ lim_ok n ltac:(lia)) as (F & V). split; auto. split; auto.
  split; [apply T_pos, pd_lo|]. apply T_hi; [apply pd_lo|apply dT_ok|lia].
Qed.
Lemma norm_ok : forall x y, fin x = true -> fin y = true -> 0 <= f2r x <= f2r y -> 0 < f2r y ->
  exists t, j_norm ieee x y = Ok t /\ le64 fzero t /\ le64 t f1.
Proof.
  intros x y Fx Fy H P. assert (Q : 0 <= f2r x / f2r y <= 1) by (apply norm_range; auto).
  destruct (fdiv_ok x y Fx) as (F & V); [lra|rewrite Rabs_pos_eq by lra; pose proof pow_top; pose proof (bpow_le radix2 0 1023 ltac:(lia)); change (bpow radix2 0) with 1 in *; lra|].
  destruct f1_ok as (F1 & V1). exists (fdiv x y).
  assert (B0 : 0 <= f2r (fdiv x y)) by (rewrite V, <- b64_0; apply (r_mono _ b64_rounding); lra).
  assert (B1 : f2r (fdiv x y) <= 1). { rewrite V. assert (E : b64 1 = 1) by (apply b64_fix, (is_b64_int 1); lia). rewrite <- E. apply (r_mono _ b64_rounding). lra. }
  split; [|split; apply le_ok; auto; rewrite ?V1; auto]. unfold j_norm. rewrite c0_zero, c1_one. cbn [a_lt a_div ieee]. rewrite !blt_ok by auto. rewrite V1. change (f2r fzero) with 0.
  unfold Rltb. destruct (Rlt_dec _ _); [lra|]. destruct (Rlt_dec _ _); [lra|]. reflexivity.
Qed.
Section Swing.
Variables n i : nat.
Hypothesis n0 : (0 < n)%nat.
Hypothesis room : (i + n <= length ph)%nat.
Lemma n40 : (Z.of_nat n <= 2 ^ 40)%Z. Proof. lia. Qed.
Lemma Tn_pos : d / 2 <= T d n /\ bpow radix2 (-910) <= T d n.
Proof.
  pose proof (T_gap d pd_lo 0 n) as G. rewrite T_0 in G. assert (2 ^ 40 <= 2 ^ 50)%Z by (apply Z.pow_le_mono_r; lia). specialize (G ltac:(lia) n0).
  pose proof pd_lo. split; [lra|]. assert (bpow radix2 (-910) <= bpow radix2 (-900) / 2); [|lra]. replace (bpow radix2 (-900) / 2) with (bpow radix2 (-901)); [apply bpow_le; lia|].
  change (-901)%Z with (-900 + -1)%Z. rewrite bpow_plus. change (bpow radix2 (-1)) with (/ 2). lra.
Qed.
Lemma mul_dur : forall x, fin x = true -> 0 <= f2r x <= 1 -> fin (fmul (dur n) x) = true /\ f2r (fmul (dur n) x) = b64 (T d n * f2r x) /\ fin (fmul x (dur n)) = true /\ f2r (fmul x (dur n)) = b64 (f2r x * T d n).
Proof.
  intros x Fx Hx. destruct (dur_val n n40) as (F & V & P). pose proof (pow961_top 960 ltac:(lia)).
  assert (0 <= T d n * f2r x <= bpow radix2 960). { split; [apply Rmult_le_pos; lra|]. replace (bpow radix2 960) with (bpow radix2 960 * 1) by ring. apply Rmult_le_compat; lra. }
  destruct (fmul_ok (dur n) x F Fx) as (A & B). { rewrite V, Rabs_pos_eq; lra. } rewrite V in B.
  destruct (fmul_ok x (dur n) Fx F) as (C & E). { rewrite V, Rmult_comm, Rabs_pos_eq; lra. } rewrite V in E. auto.
Qed.
Lemma sample_ok : forall k k0 half, (k < n)%nat -> (k0 <= k)%nat -> fin half = true -> b64 (T d k - T d k0) <= f2r half -> 0 < f2r half ->
  exists x z, j_sample ieee dT n k k0 half = Ok (x, z) /\ (le64 fzero x /\ le64 x f1) /\ (le64 fzero z /\ le64 z f1).
Proof.
  intros k k0 half Hk H0 Fh Hh Ph. pose proof n40. destruct (dur_val k ltac:(lia)) as (Fk & Vk & Pk). destruct (dur_val k0 ltac:(lia)) as (F0 & V0 & P0). destruct (dur_val 0 ltac:(lia)) as (Fz & Vz & Pz).
  destruct (dur_val n n40) as (Fn & Vn & Pn). pose proof (T_mono d pd_lo k0 k H0). pose proof (T_mono d pd_lo k n ltac:(lia)). destruct Tn_pos as (Tn & _). pose proof (d_pos d pd_lo).
  pose proof (T_mono d pd_lo 0 k ltac:(lia)). assert (Z0 : T d 0 = 0) by apply T_0.
  assert (Sub : forall u v, ok64 u -> ok64 v -> f2r v <= f2r u -> fin (fsub u v) = true /\ 0 <= f2r (fsub u v) /\ f2r (fsub u v) = b64 (f2r u - f2r v)).
  { intros u v Hu Hv L. destruct (ok_sub u v Hu Hv) as (A & B). split; auto. split; auto. rewrite B, <- b64_0. apply (r_mono _ b64_rounding). lra. }
  assert (Ok : forall m, (Z.of_nat m <= 2 ^ 40)%Z -> ok64 (dur m)). { intros m Hm. destruct (dur_val m Hm) as (A & B & C). split; auto. rewrite B. auto. }
  destruct (Sub (dur k) (dur 0) (Ok k ltac:(lia)) (Ok 0%nat ltac:(lia))) as (S1 & S2 & S3); [rewrite Vk, Vz; lra|].
  destruct (Sub (dur k) (dur k0) (Ok k ltac:(lia)) (Ok k0 ltac:(lia))) as (S4 & S5 & S6); [rewrite Vk, V0; lra|].
  rewrite Vk, Vz, Z0, Rminus_0_r, T_b64 in S3. rewrite Vk, V0 in S6.
  destruct (norm_ok (fsub (dur k) (dur 0)) (dur n) S1 Fn) as (x & X1 & X2); [rewrite Vn, S3 in *; lra|rewrite Vn; lra|].
  destruct (norm_ok (fsub (dur k) (dur k0)) half S4 Fh) as (z & Z1 & Z2); [|auto|].
  { split; auto. rewrite S6. exact Hh. }
  exists x, z. split; auto. unfold j_sample. cbn [a_sub ieee]. rewrite X1. cbn [rbind]. rewrite Z1. reflexivity.
Qed.
Notation q := (b64 (INR n * a)).
Notation r := (Z.to_nat (Rround q)).
Notation bound := (fadd (fwhole Rround (fmul (fmake (Z.of_nat n) 0) apex)) (fmake (Z.of_nat i) 0)).
Lemma bound_ok : fin bound = true /\ f2r bound = IZR (Z.of_nat i + Rround q).
Proof.
  destruct apex_val as (Fa & Ha). assert (B50 : (2 ^ 40 <= 2 ^ 50)%Z) by (apply Z.pow_le_mono_r; lia). assert (B53 : (2 ^ 50 <= 2 ^ 53)%Z) by (apply Z.pow_le_mono_r; lia). destruct (fmake_nat n ltac:(lia)) as (Fn & Vn). destruct (fmake_nat i ltac:(lia)) as (Fi & Vi).
  pose proof (na_bound a Ha n n40) as (Nb & N1). pose proof (r_range a Ha n n40) as Rr.
  assert (P40 : 2199023255552 <= top). { eapply Rle_trans; [|apply (pow961_top 41); lia]. apply Req_le. reflexivity. }
  destruct (fmul_ok (fmake (Z.of_nat n) 0) apex Fn Fa) as (Fm & Vm). { rewrite Vn, Rabs_pos_eq; lra. } rewrite Vn in Vm.
  destruct (fwhole_ok Rround _ Fm) as (Fw & Vw). { rewrite Vm. lia. } rewrite Vm in Vw.
  destruct (fadd_ok _ _ Fw Fi) as (A & B).
  { rewrite Vw, Vi, (INR_IZR_INZ i), <- plus_IZR. rewrite Rabs_pos_eq by (apply IZR_le; lia). eapply Rle_trans; [|exact P40]. apply IZR_le. change (2 ^ 40)%Z with 1099511627776%Z in *. lia. }
  split; auto. rewrite B, Vw, Vi, (INR_IZR_INZ i), <- plus_IZR. rewrite Z.add_comm. apply b64_fix, is_b64_int. change (2 ^ 40)%Z with 1099511627776%Z in *. change (2 ^ 53)%Z with 9007199254740992%Z. lia.
Qed.
Lemma up_loop : forall half room k, (r = k + length (seq k (r - k)))%nat -> (r - k <= room)%nat -> (k <= r)%nat -> (i + k + room <= length ph)%nat ->
  j_up ieee dT n i half bound room k = collect (map (fun k => j_sample ieee dT n k 0 half) (seq k (r - k))).
Proof.
  intros half. destruct bound_ok as (Fb & Vb). destruct apex_val as (_ & Ha). pose proof (r_range a Ha n n40) as Rr. assert (B50 : (2 ^ 40 <= 2 ^ 50)%Z) by (apply Z.pow_le_mono_r; lia).
  induction room0 as [|room0 IH]; intros k Hs Hr Hk Hl; cbn [j_up]; cbn [a_lt a_size ieee]; destruct (fmake_nat (i + k) ltac:(lia)) as (Fk & Vk); rewrite blt_ok by auto; rewrite Vk, Vb, INR_IZR_INZ.
  - replace (r - k)%nat with 0%nat by lia. cbn [seq map collect]. unfold Rltb. destruct (Rlt_dec _ _) as [L|L]; auto. apply lt_IZR in L. lia.
  - unfold Rltb. destruct (Rlt_dec _ _) as [L|L].
    + apply lt_IZR in L. replace (r - k)%nat with (S (r - S k)) by lia. cbn [seq map collect]. destruct (j_sample ieee dT n k 0 half); cbn [rbind]; auto.
      rewrite IH; auto; try lia. rewrite seq_length. lia.
    + assert (K : (Z.of_nat i + Rround q <= Z.of_nat (i + k))%Z) by (apply le_IZR; lra). replace (r - k)%nat with 0%nat by lia. reflexivity.
Qed.
Definition good (x : f64 * f64) : Prop := (le64 fzero (fst x) /\ le64 (fst x) f1) /\ (le64 fzero (snd x) /\ le64 (snd x) f1).
Lemma collect_good : forall f l, (forall k, In k l -> exists x, (f : nat -> res (f64 * f64)) k = Ok x /\ good x) -> exists out, collect (map f l) = Ok out /\ length out = length l /\ forall x, In x out -> good x.
Proof.
  intros f. induction l as [|k l IH]; intros H; cbn [map collect]; [exists []; split; auto; split; auto; intros x []|].
  destruct (H k (or_introl eq_refl)) as (x & E & G). rewrite E. cbn [rbind]. destruct IH as (out & E' & L & P); [intros; apply H; right; auto|]. rewrite E'. cbn [rbind].
  exists (x :: out). split; auto. split; [cbn; congruence|]. intros y [<-|Hy]; auto.
Qed.
Lemma jerk_ok : exists out, j_swing ieee whole_ieee apex dT ph n i = Ok out /\ length out = n /\ forall x, In x out -> good x.
Proof.
  destruct apex_val as (Fa & Ha). pose proof (r_range a Ha n n40) as Rr. pose proof (d_pos d pd_lo) as Dp. unfold j_swing. cbn [a_add a_mul a_size a_sub ieee w_round whole_ieee]. rewrite c1_one.
  rewrite (up_loop _ (length ph - i) 0) by (rewrite ?seq_length; lia). rewrite Nat.sub_0_r.
  destruct (mul_dur apex Fa ltac:(lra)) as (Fh & Vh & _).
  destruct (collect_good (fun k => j_sample ieee dT n k 0 (fmul (dur n) apex)) (seq 0 r)) as (up & Eu & Lu & Pu).
  { intros k Hk. apply in_seq in Hk. destruct (up_real d a pd_lo Ha n n40 k ltac:(lia)) as (U1 & U2).
    destruct (sample_ok k 0 (fmul (dur n) apex)) as (x & z & E & G); auto; try lia.
    - rewrite Vh, T_0, Rminus_0_r, T_b64. apply (r_mono _ b64_rounding). exact U1.
    - rewrite Vh. apply Rlt_le_trans with (b64 (bpow radix2 (-910))).
      + rewrite b64_fix by (replace (bpow radix2 (-910)) with (IZR 1 * bpow radix2 (-910)) by ring; apply is_b64_dyadic; lia). apply bpow_gt_0.
      + apply (r_mono _ b64_rounding). eapply Rle_trans; [|exact U2]. pose proof pd_lo. assert (bpow radix2 (-910) <= bpow radix2 (-900) / 4); [|lra].
        replace (bpow radix2 (-900) / 4) with (bpow radix2 (-902)); [apply bpow_le; lia|]. change (-902)%Z with (-900 + -2)%Z. rewrite bpow_plus. change (bpow radix2 (-2)) with (/ 4). lra.
    - exists (x, z). split; auto. }
  rewrite Eu. cbn [rbind]. rewrite seq_length in Lu. rewrite Lu. destruct f1_ok as (F1 & V1).
  destruct (fsub_ok f1 apex F1 Fa) as (Fs & Vs). { rewrite V1, Rabs_pos_eq by lra. pose proof (pow961_top 0 ltac:(lia)). change (bpow radix2 0) with 1 in *. lra. } rewrite V1 in Vs.
  destruct (collect_good (fun k => j_sample ieee dT n k r (fmul (dur n) (fsub f1 apex))) (seq r (n - r))) as (down & Ed & Ld & Pd).
  { intros k Hk. apply in_seq in Hk. destruct (down_real d a pd_lo Ha n n40 k ltac:(lia) ltac:(lia)) as (U1 & U2 & U3).
    destruct (mul_dur (fsub f1 apex) Fs ltac:(rewrite Vs; lra)) as (Fh2 & Vh2 & _). rewrite Vs in Vh2.
    destruct (sample_ok k r (fmul (dur n) (fsub f1 apex))) as (x & z & E & G); auto; try lia.
    - rewrite Vh2. apply (r_mono _ b64_rounding). exact U1.
    - rewrite Vh2. apply Rlt_le_trans with (b64 (bpow radix2 (-910))).
      + rewrite b64_fix by (replace (bpow radix2 (-910)) with (IZR 1 * bpow radix2 (-910)) by ring; apply is_b64_dyadic; lia). apply bpow_gt_0.
      + apply (r_mono _ b64_rounding). eapply Rle_trans; [|exact U2]. pose proof pd_lo. assert (bpow radix2 (-910) <= bpow radix2 (-900) / 4); [|lra].
        replace (bpow radix2 (-900) / 4) with (bpow radix2 (-902)); [apply bpow_le; lia|]. change (-902)%Z with (-900 + -2)%Z. rewrite bpow_plus. change (bpow radix2 (-2)) with (/ 4). lra.
    - exists (x, z). split; auto. }
  rewrite Ed. cbn [rbind]. exists (up ++ down). split; auto. split; [rewrite app_length, Lu, Ld, seq_length; lia|]. intros x Hx. apply in_app_or in Hx. destruct Hx; auto.
Qed.
End Swing.
End Foot.
