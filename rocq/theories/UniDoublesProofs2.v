(** The limits the planner installs, in doubles. *)
From Coq Require Import Reals ZArith List Bool Lia Lra.
From Flocq Require Import Core IEEE754.BinarySingleNaN.
From Verif Require Import Prelude UnicycleFoot Rounding RoundedGen RoundedGenSpec RoundedGenProofs2 RoundedGenProofs3 Controllers ControlSpec
  Doubles DoublesSpec DoublesProofs DoublesProofs2 CtrlDoubles CtrlDoublesSpec CtrlDoublesProofs StepDoubles StepDoublesSpec StepDoublesProofs StepDoublesProofs5
  EllDoublesProofs EllDoublesProofs2 NavDoublesProofs UniDoubles UniDoublesSpec UniDoublesProofs.
Import ListNotations.
Open Scope R_scope.

Lemma good_fmul : good_square (fun x => fmul x x).
Proof.
  split; [apply fmul_square|]. split.
  - intros x y H0 H. assert (L := le64_inv _ _ H). assert (L0 := le64_inv _ _ H0). rewrite key_0 in L0. destruct (le64_number _ _ H) as (Nx & Ny). pose proof inf_pos as I.
    assert (NF : forall z, number z -> 0 <= key z -> fin z = true \/ z = finf).
    { intros z Nz Kz. destruct (number_cases _ Nz) as [F|[F|F]]; auto. exfalso. rewrite F in Kz. change (key (B754_infinity true)) with (- bpow radix2 1024) in Kz. lra. }
    destruct (NF x Nx L0) as [Fx|Ex].
    + destruct (NF y Ny ltac:(lra)) as [Fy|Ey].
      * destruct (key_mul x x Fx Fx) as (N1 & K1). destruct (key_mul y y Fy Fy) as (N2 & K2). apply le64_key; auto. rewrite K1, K2. rewrite !key_fin in * by auto. apply clamp_mono, b64_mono. apply Rmult_le_compat; lra.
      * subst y. destruct (key_mul x x Fx Fx) as (N1 & K1). change (fmul finf finf) with finf. apply le64_key; auto. rewrite K1. change (key finf) with (bpow radix2 1024). unfold clamp. apply Rmax_lub; [lra|apply Rmin_l].
    + subst x. destruct (NF y Ny ltac:(lra)) as [Fy|Ey].
      * exfalso. rewrite (key_fin y) in L by auto. change (key finf) with (bpow radix2 1024) in L. pose proof (f2r_lt y) as B. apply Rabs_def2 in B. lra.
      * subst y. change (fmul finf finf) with finf. reflexivity.
  - intros x F B. destruct (fmul_ok x x F F) as (A & _); auto. apply big_fin. rewrite Rabs_mult. change 1000%Z with (500 + 500)%Z. rewrite bpow_plus. apply Rmult_le_compat; auto; apply Rabs_pos.
Qed.

(** ** Quotients and products of the limits *)
Lemma quot_prod : forall x m g, fin x = true -> fin m = true -> fin g = true -> 0 <= f2r x <= bpow radix2 200 -> bpow radix2 (-100) <= f2r m <= bpow radix2 100 -> 0 <= f2r g <= 1 ->
  let y := fmul (fdiv x m) g in
  fin y = true /\ 0 <= f2r y <= bpow radix2 310 /\ f2r y * f2r m <= f2r x + bpow radix2 (-51) * f2r x + bpow radix2 (-900).
Proof.
  intros x m g Fx Fm Fg Hx Hm Hg y. subst y. pose proof (bpow_gt_0 radix2 (-100)) as P0. pose proof eta64_pos as E0. destruct u64_bounds as ((U0 & U1) & EU).
  set (X := f2r x) in *. set (m' := f2r m) in *. set (g' := f2r g) in *. assert (I0 : 0 < / m') by (apply Rinv_0_lt_compat; lra).
  assert (I1 : / m' <= bpow radix2 100). { replace (bpow radix2 100) with (/ bpow radix2 (-100)) by (rewrite <- bpow_opp; reflexivity). apply Rinv_le_contravar; lra. }
  set (q := X / m'). assert (Q0 : 0 <= q) by (apply Rmult_le_pos; lra).
  assert (Q1 : q <= bpow radix2 300). { change 300%Z with (200 + 100)%Z. rewrite bpow_plus. apply Rmult_le_compat; lra. }
  assert (P300 : bpow radix2 300 <= bpow radix2 1000) by (apply bpow_le; lia).
  destruct (fdiv_ok x m Fx) as (F1 & V1); [fold m'; lra|fold X m' q; rewrite Rabs_pos_eq by auto; apply Rle_trans with (bpow radix2 1000); [lra|]; pose proof pow_top; pose proof (bpow_le radix2 1000 1023 ltac:(lia)); lra|]. fold X m' q in V1.
  assert (B1 : 0 <= b64 q) by (apply (rnd_nonneg _ b64_rounding); auto). pose proof (b64_near q q) as N1. rewrite Rabs_pos_eq in N1 by auto. specialize (N1 (Rle_refl _)). apply Rabs_le_inv in N1. rewrite <- V1 in B1, N1. set (d := f2r (fdiv x m)) in *.
  assert (D0 : 0 <= d * g') by (apply Rmult_le_pos; lra). assert (D1 : d * g' <= d) by (replace d with (d * 1) at 2 by ring; apply Rmult_le_compat_l; lra).
  assert (UQ : u64 * q <= / 9007199254740992 * q) by (apply Rmult_le_compat_r; lra). assert (UQ0 : 0 <= u64 * q) by (apply Rmult_le_pos; lra).
  assert (E1 : eta64 <= / 4). { unfold eta64. pose proof (bpow_le radix2 (-1074) (-1) ltac:(lia)) as Z. change (bpow radix2 (-1)) with (/ 2) in Z. lra. }
  assert (P310 : 1024 * bpow radix2 300 = bpow radix2 310) by (change 1024 with (bpow radix2 10); rewrite <- bpow_plus; reflexivity). pose proof (bpow_le radix2 310 1000 ltac:(lia)) as P310'. pose proof (bpow_le radix2 0 300 ltac:(lia)) as P1. change (bpow radix2 0) with 1 in P1.
  destruct (fmul_ok (fdiv x m) g F1 Fg) as (F2 & V2); [fold d g'; apply big_fin; rewrite Rabs_pos_eq by auto; lra|]. fold d g' in V2.
  assert (B2 : 0 <= b64 (d * g')) by (apply (rnd_nonneg _ b64_rounding); auto). pose proof (b64_near (d * g') d) as N2. rewrite Rabs_pos_eq in N2 by auto. specialize (N2 D1). apply Rabs_le_inv in N2. rewrite <- V2 in B2, N2. set (r := f2r (fmul (fdiv x m) g)) in *.
  assert (UD : u64 * d <= u64 * (q + u64 * q + eta64)) by (apply Rmult_le_compat_l; lra). assert (UU : u64 * (u64 * q) <= / 9007199254740992 * (u64 * q)) by (apply Rmult_le_compat_r; lra). assert (UE : u64 * eta64 <= 1 * eta64) by (apply Rmult_le_compat_r; lra).
  assert (R1 : r <= q + 4 * (u64 * q) + 3 * eta64) by lra.
  split; auto. split; [lra|]. apply Rle_trans with ((q + 4 * (u64 * q) + 3 * eta64) * m'); [apply Rmult_le_compat_r; lra|].
  replace ((q + 4 * (u64 * q) + 3 * eta64) * m') with (X + 4 * u64 * X + 3 * (eta64 * m')) by (unfold q; field; lra).
  assert (E4 : 4 * u64 = bpow radix2 (-51)) by (rewrite EU; change 4 with (bpow radix2 2); rewrite <- bpow_plus; reflexivity). rewrite E4.
  assert (3 * (eta64 * m') <= bpow radix2 (-900)); [|lra]. apply Rle_trans with (4 * (eta64 * bpow radix2 100)).
  - assert (eta64 * m' <= eta64 * bpow radix2 100) by (apply Rmult_le_compat_l; lra). assert (0 <= eta64 * m') by (apply Rmult_le_pos; lra). lra.
  - unfold eta64. change 4 with (bpow radix2 2). change (/ 2) with (bpow radix2 (-1)). rewrite <- !bpow_plus. apply bpow_le. lia.
Qed.
(** sqrt (L^2 - w^2) *)
Lemma leg : forall sq L w, good_square sq -> fin L = true -> fin w = true -> 0 <= f2r w <= f2r L -> bpow radix2 (-100) <= f2r L <= bpow radix2 100 ->
  let x := fsqrt (fsub (sq L) (sq w)) in
  fin x = true /\ 0 <= f2r x /\ f2r x <= sqrt (f2r L ^ 2 - f2r w ^ 2) + 15 / 16 * bpow radix2 (-25) * f2r L.
Proof.
  intros sq L w (SQ & MON & SF) FL Fw Hw HL x. subst x. pose proof (bpow_gt_0 radix2 (-100)) as P0. pose proof eta64_pos as E0. destruct u64_bounds as ((U0 & U1) & EU).
  pose proof (bpow_le radix2 100 500 ltac:(lia)) as P100. set (L' := f2r L) in *. set (w' := f2r w) in *.
  assert (F1 : fin (sq L) = true) by (apply SF; auto; rewrite Rabs_pos_eq; fold L'; lra). assert (F2 : fin (sq w) = true) by (apply SF; auto; rewrite Rabs_pos_eq; fold w'; lra).
  destruct (SQ L F1) as (_ & S1). destruct (SQ w F2) as (_ & S2). fold L' in S1. fold w' in S2. apply Rabs_le_inv in S1. apply Rabs_le_inv in S2.
  assert (E52 : bpow radix2 (-52) = 2 * u64) by (rewrite EU; change (-52)%Z with (1 + -53)%Z; rewrite bpow_plus; reflexivity). rewrite E52 in *. assert (E75 : bpow radix2 (-1075) = eta64) by (unfold eta64; change (/ 2) with (bpow radix2 (-1)); rewrite <- bpow_plus; reflexivity). rewrite E75 in *.
  assert (LE : f2r (sq w) <= f2r (sq L)). { assert (X : le64 (sq w) (sq L)). { apply MON; apply le64_key; auto using fin_number; try discriminate; rewrite ?key_0, ?key_fin by auto; fold L' w'; lra. } apply le64_inv in X. rewrite !key_fin in X by auto. exact X. }
  set (Q := L' * L') in *. assert (WQ : w' * w' <= Q) by (apply Rmult_le_compat; lra). assert (W0 : 0 <= w' * w') by (apply Rle_0_sqr). assert (QL : bpow radix2 (-200) <= Q) by (change (-200)%Z with (-100 + -100)%Z; rewrite bpow_plus; apply Rmult_le_compat; lra).
  assert (QU : Q <= bpow radix2 200) by (change 200%Z with (100 + 100)%Z; rewrite bpow_plus; apply Rmult_le_compat; lra). set (v := u64 * Q). assert (VW : u64 * (w' * w') <= v) by (apply Rmult_le_compat_l; lra). assert (VW0 : 0 <= u64 * (w' * w')) by (apply Rmult_le_pos; lra).
  assert (EE : eta64 <= / 1024 * v). { apply eta_below. pose proof (bpow_le radix2 (-900) (-200) ltac:(lia)). lra. }
  assert (VQ : v <= / 9007199254740992 * Q) by (apply Rmult_le_compat_r; lra). assert (V0 : 0 < v) by (apply Rmult_lt_0_compat; auto; pose proof (bpow_gt_0 radix2 (-200)); lra). assert (Q0 : 0 < Q) by (pose proof (bpow_gt_0 radix2 (-200)); lra).
  set (a := f2r (sq L)) in *. set (b := f2r (sq w)) in *.
  replace (2 * u64 * Q) with (2 * v) in S1 by (unfold v; ring). replace (2 * u64 * (w' * w')) with (2 * (u64 * (w' * w'))) in S2 by ring.
  assert (AB : a - b <= Q - w' * w' + (4 + / 512) * v) by lra. assert (AB' : a - b <= 5 / 4 * Q) by lra.
  pose proof (bpow_le radix2 201 1000 ltac:(lia)) as P201. assert (P200 : 2 * bpow radix2 200 = bpow radix2 201) by (change 2 with (bpow radix2 1); rewrite <- bpow_plus; reflexivity).
  destruct (fsub_ok (sq L) (sq w) F1 F2) as (F3 & V3); [fold a b; apply big_fin; rewrite Rabs_pos_eq by lra; lra|]. fold a b in V3. pose proof (b64_near (a - b) (5 / 4 * Q)) as N. rewrite Rabs_pos_eq in N by lra. specialize (N AB'). apply Rabs_le_inv in N. rewrite <- V3 in N.
  assert (D0 : 0 <= f2r (fsub (sq L) (sq w))) by (rewrite V3; apply (rnd_nonneg _ b64_rounding); lra). set (d := f2r (fsub (sq L) (sq w))) in *. replace (u64 * (5 / 4 * Q)) with (5 / 4 * v) in N by (unfold v; ring).
  assert (D1 : d <= Q - w' * w' + 27 / 5 * v) by lra. destruct (fsqrt_ok _ F3 D0) as (F4 & V4). fold d in V4. rewrite V4. assert (T0 : 0 <= sqrt d) by apply sqrt_pos.
  split; auto. split; [apply (rnd_nonneg _ b64_rounding); auto|].
  (* sqrt d *)
  assert (LP : 0 < L') by lra. assert (SD : sqrt d <= sqrt (L' ^ 2 - w' ^ 2) + 7 / 8 * bpow radix2 (-25) * L').
  { replace (L' ^ 2 - w' ^ 2) with (Q - w' * w') by (unfold Q; ring). set (z := Q - w' * w') in *. assert (Z0 : 0 <= z) by (unfold z; lra). pose proof (sqrt_pos z) as SZ. pose proof (bpow_gt_0 radix2 (-25)) as P25. set (t := 7 / 8 * bpow radix2 (-25) * L'). assert (T1 : 0 <= t) by (unfold t; apply Rmult_le_pos; lra).
    apply Rsqr_incr_0_var; [|lra]. rewrite Rsqr_sqrt by auto. unfold Rsqr. replace ((sqrt z + t) * (sqrt z + t)) with (sqrt z * sqrt z + 2 * (sqrt z * t) + t * t) by ring. rewrite sqrt_sqrt by auto. assert (0 <= sqrt z * t) by (apply Rmult_le_pos; auto).
    assert (TT : t * t = 49 / 64 * (bpow radix2 (-50) * Q)) by (unfold t, Q; change (-50)%Z with (-25 + -25)%Z; rewrite bpow_plus; field). assert (bpow radix2 (-50) * Q = 8 * v) by (unfold v; rewrite EU; change 8 with (bpow radix2 3); replace (bpow radix2 3 * (bpow radix2 (-53) * Q)) with (bpow radix2 3 * bpow radix2 (-53) * Q) by ring; rewrite <- bpow_plus; reflexivity). lra. }
  assert (SL : sqrt d <= 2 * L'). { apply Rsqr_incr_0_var; [|lra]. rewrite Rsqr_sqrt by auto. unfold Rsqr. replace (2 * L' * (2 * L')) with (4 * Q) by (unfold Q; ring). lra. }
  pose proof (b64_near (sqrt d) (2 * L')) as M. rewrite Rabs_pos_eq in M by auto. specialize (M SL). apply Rabs_le_inv in M. assert (EL : eta64 <= / 1024 * (u64 * L')). { apply eta_below. pose proof (bpow_le radix2 (-900) (-100) ltac:(lia)). lra. }
  assert (u64 * L' <= / 64 * (bpow radix2 (-25) * L')); [|replace (u64 * (2 * L')) with (2 * (u64 * L')) in M by ring; assert (0 <= bpow radix2 (-25) * L') by (apply Rmult_le_pos; [apply bpow_ge_0|lra]); lra].
  replace (/ 64 * (bpow radix2 (-25) * L')) with (/ 64 * bpow radix2 (-25) * L') by ring. apply Rmult_le_compat_r; [lra|]. rewrite EU. change (/ 64) with (bpow radix2 (-6)). rewrite <- bpow_plus. apply bpow_le. lia.
Qed.

Lemma planner_limits : forall P sq c s at2, List.Forall tame P -> good_square sq -> let S := settings ieee P in usual S -> u_refused ieee S = false ->
  let M := ieee_maths sq c s at2 in let lin := u_lin ieee M S in let ang := u_ang ieee S in
  fin lin = true /\ fin ang = true /\ 0 <= f2r lin /\ 0 <= f2r ang <= bpow radix2 310
  /\ f2r lin * f2r (S q_minT) <= sqrt (f2r (S q_maxLen) ^ 2 - f2r (S q_nomWidth) ^ 2) + bpow radix2 (-25) * f2r (S q_maxLen)
  /\ f2r ang * f2r (S q_minT) <= f2r (S q_maxAngle) + bpow radix2 (-51) * f2r (S q_maxAngle) + bpow radix2 (-900).
Proof.
  intros P sq c s at2 TP GS S [(L1 & L2) (A1 & A2) (T1 & T2)] NR M lin ang. destruct (valid_history P TP) as [? ? ? ? ? ? ? ? ? ? ? ? ? (G1 & G2 & G3 & G4) ? (V1 & V2 & V3) ? ? ? ? (W1 & W2)]. fold S in G1, G2, G3, G4, V1, V2, V3, W1, W2.
  unfold u_refused in NR. apply Bool.orb_false_elim in NR as (NR & _). apply Bool.orb_false_elim in NR as (NR & _). cbn [a_lt ieee] in NR.
  assert (FB : forall x, le64 fzero x -> le64 x f1 -> fin x = true /\ 0 <= f2r x <= 1).
  { intros x H0 H1. pose proof (le64_number _ _ H1) as (Nx & _). apply le64_inv in H0. apply le64_inv in H1. destruct f1_ok as (F1 & E1). rewrite key_0 in H0. rewrite (key_fin f1), E1 in H1 by auto.
    assert (Fx : fin x = true). { apply (fin_between x Nx 1); [apply Rabs_le; lra|]. pose proof (bpow_lt radix2 0 1024 ltac:(lia)). change (bpow radix2 0) with 1 in *. lra. } rewrite key_fin in H0, H1 by auto. auto. }
  destruct (FB _ G1 G2) as (FG1 & HG1). destruct (FB _ G3 G4) as (FG2 & HG2).
  assert (Nw : number (S q_nomWidth)) by exact (proj2 (le64_number _ _ W2)). assert (W0 : 0 <= key (S q_nomWidth)) by (apply le64_inv in W1; apply le64_inv in W2; rewrite key_0 in W1; lra).
  assert (WL : key (S q_nomWidth) <= f2r (S q_maxLen)). { rewrite blt_key in NR by auto using fin_number. rewrite (key_fin (S q_maxLen)) in NR by auto. rcasesh NR; [discriminate|lra]. }
  assert (Fw : fin (S q_nomWidth) = true). { apply (fin_between _ Nw (bpow radix2 100)); [apply Rabs_le; pose proof (bpow_ge_0 radix2 100); lra|apply bpow_lt; lia]. } rewrite key_fin in W0, WL by auto.
  apply le64_inv in V3. rewrite key_0, key_fin in V3 by auto.
  destruct (leg sq (S q_maxLen) (S q_nomWidth) GS L1 Fw (conj W0 WL) L2) as (X1 & X2 & X3). set (x := fsqrt _) in *.
  pose proof (bpow_gt_0 radix2 (-25)) as P25. pose proof (bpow_gt_0 radix2 (-100)) as P100. set (L := f2r (S q_maxLen)) in *. set (w := f2r (S q_nomWidth)) in *.
  assert (SL : sqrt (L ^ 2 - w ^ 2) <= L). { rewrite <- (sqrt_square L) at 2 by lra. apply sqrt_le_1_alt. pose proof (Rle_0_sqr w). unfold Rsqr in *. lra. }
  assert (P1 : bpow radix2 (-25) * L <= L). { replace L with (1 * L) at 2 by ring. apply Rmult_le_compat_r; [lra|]. pose proof (bpow_le radix2 (-25) 0 ltac:(lia)). change (bpow radix2 0) with 1 in *. lra. }
  assert (XB : f2r x <= 2 * L) by lra. assert (P101 : 2 * bpow radix2 100 <= bpow radix2 200) by (change 2 with (bpow radix2 1); rewrite <- bpow_plus; apply bpow_le; lia). pose proof (bpow_le radix2 100 200 ltac:(lia)) as P200.
  destruct (quot_prod x (S q_minT) (S q_linFac) X1 T1 FG1 ltac:(lra) T2 HG1) as (Y1 & Y2 & Y3). destruct (quot_prod (S q_maxAngle) (S q_minT) (S q_angFac) A1 T1 FG2 ltac:(lra) T2 HG2) as (Z1 & Z2 & Z3).
  change (fmul (fdiv x (S q_minT)) (S q_linFac)) with lin in *. change (fmul (fdiv (S q_maxAngle) (S q_minT)) (S q_angFac)) with ang in *.
  split; [exact Y1|]. split; [exact Z1|]. split; [lra|]. split; [exact Z2|]. split; [|exact Z3]. eapply Rle_trans; [exact Y3|].
  assert (B1 : bpow radix2 (-51) * f2r x <= bpow radix2 (-51) * (2 * L)) by (apply Rmult_le_compat_l; [apply bpow_ge_0|lra]).
  assert (B2 : bpow radix2 (-51) * (2 * L) <= / 64 * (bpow radix2 (-25) * L)). { replace (bpow radix2 (-51) * (2 * L)) with (2 * bpow radix2 (-51) * L) by ring. replace (/ 64 * (bpow radix2 (-25) * L)) with (/ 64 * bpow radix2 (-25) * L) by ring. apply Rmult_le_compat_r; [lra|]. change 2 with (bpow radix2 1). change (/ 64) with (bpow radix2 (-6)). rewrite <- !bpow_plus. apply bpow_le. lia. }
  assert (B3 : bpow radix2 (-900) <= / 64 * (bpow radix2 (-25) * L)). { apply Rle_trans with (/ 64 * (bpow radix2 (-25) * bpow radix2 (-100))); [change (/ 64) with (bpow radix2 (-6)); rewrite <- !bpow_plus; apply bpow_le; lia|]. apply Rmult_le_compat_l; [lra|]. apply Rmult_le_compat_l; lra. }
  assert (0 <= bpow radix2 (-25) * L) by (apply Rmult_le_pos; lra). lra.
Qed.

Lemma last_of_app : forall A B (f : A -> option B) l d x, last_of f d (l ++ [x]) = match f x with Some y => y | None => last_of f d l end.
Proof. intros A B f l. induction l as [|y l IH]; intros d x; [reflexivity|]. cbn [app last_of]. apply IH. Qed.
Lemma sat64_last : forall l lin ang, le64 fzero lin -> le64 fzero ang -> sat64 (l ++ [sSat lin ang]) = Some (lin, ang).
Proof. intros l lin ang H1 H2. unfold sat64. rewrite last_of_app. unfold arg64, le64 in *. rewrite H1, H2. reflexivity. Qed.
Lemma factors_last : forall l lin ang, turn64 (l ++ [sSat lin ang]) = turn64 l /\ back64 (l ++ [sSat lin ang]) = back64 l /\ side64 (l ++ [sSat lin ang]) = side64 l.
Proof. intros. unfold turn64, back64, side64. rewrite !last_of_app. auto. Qed.
Lemma top_speed_scale : forall lin b d, 0 <= lin -> top_speed lin b d = lin * top_speed 1 b d.
Proof.
  intros lin b d H. unfold top_speed. rewrite <- (sqrt_square lin) at 3 by auto. rewrite <- sqrt_mult_alt by (apply Rle_0_sqr). f_equal. ring.
Qed.

Section Exact.
Variables (K : Type) (ctl : K -> R -> ustate -> option (K * cmd)) (S : field -> R) (sq : R -> R) (at2 : R -> R -> R).
Definition unpose (p : dpose R) : ustate := MkU (V2 (d_x p) (d_y p)) (d_th p).
Lemma exact_roll : forall hs k t u,
  u_roll reals (MkMaths R Ropp sqrt sq cos sin at2) (fun k t p => match ctl k t (unpose p) with None => None | Some (k', c) => Some (k', MkDC (c_fwd c) (c_ang c) (c_lat c)) end) S k
         (MkDP (vx (u_pos u)) (vy (u_pos u)) (u_angle u)) (timed t hs)
  = match rollout K ctl (MkBase (S q_satLin) (S q_satAng) (S q_turn) (S q_back) (S q_side)) k t u hs with
    | None => None | Some (k', _, u') => Some (k', MkDP (vx (u_pos u')) (vy (u_pos u')) (u_angle u')) end.
Proof.
  induction hs as [|h hs IH]; intros k t u; [reflexivity|]. cbn [timed u_roll rollout]. unfold unpose at 1. cbn [d_x d_y d_th]. destruct u as [(x & y) th]. cbn [u_pos u_angle vx vy].
  destruct (ctl k t _) as [(k' & raw)|]; [|reflexivity]. rewrite exact_control. rewrite <- IH. f_equal.
Qed.
End Exact.
