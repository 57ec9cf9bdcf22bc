(** Lemmas about the evaluation of the DCM trajectory and the feet weights. *)
From Coq Require Import String Reals Lra Lia ZArith List Bool.
From Verif Require Import Prelude EvalTac Rounding FootPrint GenPhases GenSpec GenProofs FeetTraj FeetProofs FeetProofs2 ZMP ZMPSpec DCM DCMSpec DCMProofs DCMProofs2.
Import ListNotations.
Open Scope R_scope.
Notation Forall := List.Forall.

(** ** Evaluation *)
Definition sample_of (x : sub) (t : R) : dsample := MkDS (sub_pos x t) (sub_vel x t) (sub_zmp x t).
Lemma at_tail : forall s x r t, sub_t1 s < t -> at_time (s :: x :: r) t = at_time (x :: r) t.
Proof.
  intros s x r t H. change (at_time (s :: x :: r) t) with (if Rleb t (sub_t1 s) then Some s else at_time (x :: r) t). rewrite (proj2 (Rleb_false _ _)) by auto. reflexivity.
Qed.
Lemma eval_ok : forall dT E n i s r, 0 < dT -> tiles (sub_t0 s) E (s :: r) -> Forall (fun s => dT <= sub_t1 s - sub_t0 s) (removelast (s :: r)) ->
  sub_t0 s <= INR i * dT -> INR i * dT <= sub_t1 s + dT -> (forall j, (j < i + n)%nat -> INR j * dT <= E) ->
  exists ys, eval_loop dT n i (s :: r) = Ok ys /\ length ys = n
  /\ forall j y, nth_error ys j = Some y -> exists x, at_time (s :: r) (INR (i + j) * dT) = Some x /\ y = sample_of x (INR (i + j) * dT).
Proof.
  intros dT E n. induction n as [|n IH]; intros i s r Hd HT HF H1 H2 HE.
  - exists []. split; [reflexivity|]. split; [reflexivity|]. intros [|j] y H; discriminate.
  - cbn [eval_loop]. pose proof (HE i ltac:(lia)) as Ei.
    assert (Nx : INR (S i) * dT = INR i * dT + dT) by (rewrite S_INR; ring).
    pose proof HT as (_ & HT1 & HT2). unfold Rgtb. destruct (Rltb (sub_t1 s) (INR i * dT)) eqn:C.
    + apply Rltb_true in C. destruct r as [|x r]; [cbn in HT2; lra|].
      pose proof HT2 as (X0 & X1 & X2). rewrite (removelast_cons _ s (x :: r)) in HF by discriminate. pose proof (Forall_inv_tail HF) as HF'.
      assert (Ux : INR i * dT <= sub_t1 x).
      { destruct r as [|y r]; [cbn in X2; lra|]. rewrite (removelast_cons _ x (y :: r)) in HF' by discriminate. apply Forall_inv in HF'. lra. }
      rewrite checked_in by lra. cbn [rbind].
      destruct (IH (S i) x r Hd) as (ys & Y1 & Y2 & Y3).
      { rewrite X0. exact HT2. } { exact HF'. } { lra. } { lra. } { intros j Hj. apply HE. lia. }
      rewrite Y1. cbn [rbind]. eexists. split; [reflexivity|]. split; [cbn; lia|].
      intros [|j] y Hj; cbn [nth_error] in Hj.
      * injection Hj as <-. rewrite Nat.add_0_r. exists x. split; [|reflexivity]. rewrite at_tail by auto. apply at_head. auto.
      * destruct (Y3 j y Hj) as (z & Z1 & Z2). replace (i + S j)%nat with (S i + j)%nat by lia. exists z. split; [|exact Z2]. rewrite at_tail; [exact Z1|].
        assert (INR i * dT <= INR (S i + j) * dT) by (apply Rmult_le_compat_r; [lra|apply le_INR; lia]). lra.
    + apply Rltb_false in C. rewrite checked_in by lra. cbn [rbind].
      destruct (IH (S i) s r Hd HT HF) as (ys & Y1 & Y2 & Y3); [lra|lra|intros j Hj; apply HE; lia|].
      rewrite Y1. cbn [rbind]. eexists. split; [reflexivity|]. split; [cbn; lia|].
      intros [|j] y Hj; cbn [nth_error] in Hj.
      * injection Hj as <-. rewrite Nat.add_0_r. exists s. split; [|reflexivity]. apply at_head. auto.
      * destruct (Y3 j y Hj) as (z & Z1 & Z2). replace (i + S j)%nat with (S i + j)%nat by lia. exists z. auto.
Qed.

(** ** Weights *)
Section Weights.
Variable B : nat -> nat.
Variable wt : step -> step -> nat -> R * R.
Fixpoint shares (k : nat) (sl sr : step) (q : list tstep) : list (R * R) :=
  map (wt sl sr) (seq (B (2 * k)) (B (2 * k + 1) - B (2 * k))) ++
  match q with
  | [] => []
  | t :: r => let n := (B (2 * k + 2) - B (2 * k + 1))%nat in
      if t_left t then repeat (0, 1) n ++ shares (S k) (t_step t) sr r else repeat (1, 0) n ++ shares (S k) sl (t_step t) r
  end.

Lemma from_here : forall b k s0 pl i n, n = (k + length pl)%nat -> (forall i j, (i <= j <= 2 * n + 1)%nat -> (B i <= B j)%nat) ->
  (i < B (2 * k + 2))%nat -> stands_from B b k s0 pl i s0.
Proof.
  intros b k s0 pl i n En M Hi. right. split; auto. intros j t E _. assert (j < length pl)%nat by (apply nth_error_Some; congruence).
  pose proof (M (2 * k + 2) (2 * (k + j) + 2))%nat. lia.
Qed.
Lemma from_next : forall b k s0 t r i s n, n = (k + length (t :: r))%nat -> (forall i j, (i <= j <= 2 * n + 1)%nat -> (B i <= B j)%nat) ->
  (B (2 * k + 2) <= i)%nat -> stands_from B b (S k) (if Bool.eqb (t_left t) b then t_step t else s0) r i s -> stands_from B b k s0 (t :: r) i s.
Proof.
  intros b k s0 t r i s n En M Hi H. destruct H as [(j & t' & E1 & E2 & E3 & E4 & E5)|(-> & E5)].
  - left. exists (S j), t'. replace (k + S j)%nat with (S k + j)%nat by lia. repeat (split; auto).
    intros [|j'] t'' F1 F2 F3; [lia|]. cbn in F1. replace (k + S j')%nat with (S k + j')%nat in F3 by lia. specialize (E5 _ _ F1 F2 F3). lia.
  - destruct (Bool.eqb (t_left t) b) eqn:Eb.
    + apply Bool.eqb_prop in Eb. left. exists 0%nat, t. replace (k + 0)%nat with k by lia. repeat (split; auto).
      intros [|j'] t'' F1 F2 F3; [lia|]. cbn in F1. replace (k + S j')%nat with (S k + j')%nat in F3 by lia. specialize (E5 _ _ F1 F2). lia.
    + right. split; auto. intros [|j'] t'' F1 F2; cbn in F1; [injection F1 as <-; rewrite F2, Bool.eqb_reflx in Eb; discriminate|].
      replace (k + S j')%nat with (S k + j')%nat by lia. eauto.
Qed.

Lemma shares_length : forall q k sl sr n, n = (k + length q)%nat -> (forall i j, (i <= j <= 2 * n + 1)%nat -> (B i <= B j)%nat) ->
  length (shares k sl sr q) = (B (2 * n + 1) - B (2 * k))%nat.
Proof.
  induction q as [|t r IH]; intros k sl sr n En M; cbn [shares length] in *; rewrite app_length, map_length, seq_length.
  - cbn [length]. replace n with k by lia. lia.
  - pose proof (M (2 * k) (2 * k + 1))%nat. pose proof (M (2 * k + 1) (2 * k + 2))%nat. pose proof (M (2 * k + 2) (2 * n + 1))%nat.
    destruct (t_left t); rewrite app_length, repeat_length, (IH (S k) _ _ n) by (auto; lia); replace (2 * S k)%nat with (2 * k + 2)%nat by lia; lia.
Qed.

Lemma shares_at : forall q k sl sr n i, n = (k + length q)%nat -> (forall i j, (i <= j <= 2 * n + 1)%nat -> (B i <= B j)%nat) ->
  (B (2 * k) <= i < B (2 * n + 1))%nat -> exists sL sR w, stands_from B true k sl q i sL /\ stands_from B false k sr q i sR
  /\ nth_error (shares k sl sr q) (i - B (2 * k)) = Some w
  /\ ((exists j t, nth_error q j = Some t /\ (B (2 * (k + j) + 1) <= i < B (2 * (k + j) + 2))%nat /\ w = if t_left t then (0, 1) else (1, 0))
      \/ ((forall j t, nth_error q j = Some t -> ~ (B (2 * (k + j) + 1) <= i < B (2 * (k + j) + 2))%nat) /\ w = wt sL sR i)).
Proof.
  induction q as [|t r IH]; intros k sl sr n i En M Hi; cbn [shares length] in *.
  - exists sl, sr, (wt sl sr i). split; [right; split; auto; intros [|j] t E; discriminate|]. split; [right; split; auto; intros [|j] t E; discriminate|].
    replace n with k in Hi by lia. split.
    + rewrite nth_error_app1 by (rewrite map_length, seq_length; lia). rewrite (map_nth_error (wt sl sr) (i - B (2 * k)) (seq _ _) (d := i)); [reflexivity|].
      replace i with (B (2 * k) + (i - B (2 * k)))%nat at 2 by lia. rewrite (nth_error_nth' _ 0%nat) by (rewrite seq_length; lia). rewrite seq_nth by lia. reflexivity.
    + right. split; auto. intros [|j] t E; discriminate.
  - pose proof (M (2 * k) (2 * k + 1))%nat as M1. pose proof (M (2 * k + 1) (2 * k + 2))%nat as M2. pose proof (M (2 * k + 2) (2 * n + 1))%nat as M3.
    assert (Later : forall j' t', nth_error r j' = Some t' -> (B (2 * k + 2) <= B (2 * (k + S j') + 1))%nat).
    { intros j' t' Hj. assert (j' < length r)%nat by (apply nth_error_Some; congruence). apply M; lia. }
    destruct (Nat.lt_ge_cases i (B (2 * k + 1))) as [C1|C1]; [|destruct (Nat.lt_ge_cases i (B (2 * k + 2))) as [C2|C2]].
    + exists sl, sr, (wt sl sr i). split; [apply from_here with n; auto; lia|]. split; [apply from_here with n; auto; lia|]. split.
      * rewrite nth_error_app1 by (rewrite map_length, seq_length; lia). rewrite (map_nth_error (wt sl sr) (i - B (2 * k)) (seq _ _) (d := i)); [reflexivity|].
        replace i with (B (2 * k) + (i - B (2 * k)))%nat at 2 by lia. rewrite (nth_error_nth' _ 0%nat) by (rewrite seq_length; lia). rewrite seq_nth by lia. reflexivity.
      * right. split; auto. intros [|j'] t' E; cbn in E; [replace (k + 0)%nat with k by lia; lia|]. specialize (Later j' t' E). lia.
    + exists sl, sr, (if t_left t then (0, 1) else (1, 0)). split; [apply from_here with n; auto; lia|]. split; [apply from_here with n; auto; lia|]. split.
      * rewrite nth_error_app2 by (rewrite map_length, seq_length; lia). rewrite map_length, seq_length.
        destruct (t_left t); rewrite nth_error_app1 by (rewrite repeat_length; lia); apply nth_error_repeat; lia.
      * left. exists 0%nat, t. replace (k + 0)%nat with k by lia. auto.
    + assert (Hi' : (B (2 * S k) <= i < B (2 * n + 1))%nat) by (replace (2 * S k)%nat with (2 * k + 2)%nat by lia; lia).
      destruct (IH (S k) (if t_left t then t_step t else sl) (if t_left t then sr else t_step t) n i ltac:(lia) M Hi') as (sL & sR & w & S1 & S2 & W & K).
      exists sL, sR, w. split; [apply from_next with n; auto; destruct (t_left t); exact S1|]. split; [apply from_next with n; auto; destruct (t_left t); exact S2|]. split.
      * rewrite nth_error_app2 by (rewrite map_length, seq_length; lia). rewrite map_length, seq_length.
        destruct (t_left t); rewrite nth_error_app2 by (rewrite repeat_length; lia); rewrite repeat_length, <- W; f_equal; replace (2 * S k)%nat with (2 * k + 2)%nat by lia; lia.
      * destruct K as [(j & t' & E1 & E2 & E3)|(N & E)].
        -- left. exists (S j), t'. replace (k + S j)%nat with (S k + j)%nat by lia. auto.
        -- right. split; auto. intros [|j'] t' E'; cbn in E'; [replace (k + 0)%nat with k by lia; lia|]. replace (k + S j')%nat with (S k + j')%nat by lia. eauto.
Qed.
End Weights.

Section Loop.
Variable c : dcfg.
Variable B : nat -> nat.
Variable lph : list phase.
Variable zs : list dsample.
Definition wt (sl sr : step) (i : nat) : R * R :=
  let w := left_share (foot_zmp (dc_offL c) sl) (foot_zmp (dc_offR c) sr) (match nth_error zs i with Some y => ds_z y | None => None end) in (w, 1 - w).

Lemma loop_shares : forall q k sl sr n extraL extraR, n = (k + length q)%nat -> (forall i, (i <= 2 * n)%nat -> (B i < B (S i))%nat) ->
  (B (2 * n + 1) <= length zs)%nat ->
  (forall j t, nth_error q j = Some t ->
     seg lph (B (2 * (k + j))) (B (2 * (k + j) + 1)) (if t_left t then SwitchOut else SwitchIn)
     /\ seg lph (B (2 * (k + j) + 1)) (B (2 * (k + j) + 2)) (if t_left t then Swing else Stance)) ->
  (exists p, (p = SwitchIn \/ p = SwitchOut) /\ seg lph (B (2 * n)) (B (2 * n + 1)) p) ->
  weight_loop c lph zs (map B (seq (2 * k + 1) (2 * length q + 1))) (B (2 * k)) (sl :: mine true q ++ extraL) (sr :: mine false q ++ extraR)
  = Ok (shares B wt k sl sr q).
Proof.
  induction q as [|t r IH]; intros k sl sr n xL xR En M Lz W Wend.
  - destruct Wend as (p & Hp & Sp). replace n with k in * by (cbn in En; lia). pose proof (M (2 * k)%nat ltac:(lia)) as M1. replace (S (2 * k)) with (2 * k + 1)%nat in M1 by lia.
    cbn [length Nat.mul Nat.add seq map mine app]. cbn [weight_loop]. change (k + (k + 0) + 1)%nat with (2 * k + 1)%nat. change (k + (k + 0))%nat with (2 * k)%nat.
    rewrite (Sp (B (2 * k))) by lia. destruct (Nat.ltb_spec (length zs) (B (2 * k + 1))); [lia|].
    destruct Hp as [-> | ->]; cbn [rbind shares]; reflexivity.
  - cbn [length] in En. pose proof (M (2 * k)%nat ltac:(lia)) as M1. replace (S (2 * k)) with (2 * k + 1)%nat in M1 by lia.
    pose proof (M (2 * k + 1)%nat ltac:(lia)) as M2. replace (S (2 * k + 1)) with (2 * k + 2)%nat in M2 by lia.
    assert (Le : forall i j, (i <= j <= 2 * n + 1)%nat -> (B i <= B j)%nat).
    { intros i j [H1 H2]. induction H1; [lia|]. specialize (IHle ltac:(lia)). pose proof (M m ltac:(lia)). lia. }
    pose proof (Le (2 * k + 2) (2 * n + 1))%nat as M3.
    destruct (W 0%nat t eq_refl) as [W1 W2]. rewrite Nat.add_0_r in W1, W2.
    replace (seq (2 * k + 1) (2 * length (t :: r) + 1)) with ((2 * k + 1)%nat :: (2 * k + 2)%nat :: seq (2 * S k + 1) (2 * length r + 1))
      by (cbn [length]; replace (2 * S (length r) + 1)%nat with (S (S (2 * length r + 1))) by lia; cbn [seq]; repeat f_equal; lia).
    cbn [map]. cbn [weight_loop]. rewrite (W1 (B (2 * k))) by lia.
    destruct (Nat.ltb_spec (length zs) (B (2 * k + 1))); [lia|]. rewrite (Nat.max_r (B (2 * k)) (B (2 * k + 1))) by lia.
    assert (G : forall xs ys, weight_loop c lph zs (map B (seq (2 * S k + 1) (2 * length r + 1))) (B (2 * S k)) ((if t_left t then t_step t else sl) :: mine true r ++ xs)
       ((if t_left t then sr else t_step t) :: mine false r ++ ys) = Ok (shares B wt (S k) (if t_left t then t_step t else sl) (if t_left t then sr else t_step t) r)).
    { intros xs ys. apply IH with n; auto; [lia|]. intros j t' Hj. replace (S k + j)%nat with (k + S j)%nat by lia. apply (W (S j) t'). exact Hj. }
    replace (B (2 * S k)) with (B (2 * k + 2)) in G by (f_equal; lia).
    assert (Mine : forall b, mine b (t :: r) = if Bool.eqb (t_left t) b then t_step t :: mine b r else mine b r) by reflexivity.
    rewrite !Mine. cbn [shares]. specialize (G xL xR).
    destruct (t_left t); cbn [Bool.eqb app] in *; rewrite (W2 (B (2 * k + 1))) by lia;
      (destruct (Nat.ltb_spec (length zs) (B (2 * k + 2))); [lia|]); rewrite (Nat.max_r (B (2 * k + 1)) (B (2 * k + 2))) by lia; rewrite G; cbn [rbind]; reflexivity.
Qed.
End Loop.

(** Whatever the phases: shares. *)
Lemma left_share_range : forall zl zr z, 0 <= left_share zl zr z <= 1.
Proof.
  intros zl zr [z|]; cbn; [|lra]. destruct (Reqb _ _); [lra|]. unfold Rmin, Rmax. repeat destruct Rle_dec; lra.
Qed.
Lemma weights_range : forall c lph zs ends i ls rs ws, weight_loop c lph zs ends i ls rs = Ok ws ->
  Forall (fun w => 0 <= fst w <= 1 /\ 0 <= snd w <= 1 /\ fst w + snd w = 1) ws.
Proof.
  intros c lph zs ends. induction ends as [|e r IH]; intros i ls rs ws H; cbn [weight_loop] in H; [injection H as <-; constructor|].
  assert (K : forall (m : list (R * R)) ws' ls' rs', Forall (fun w => 0 <= fst w <= 1 /\ 0 <= snd w <= 1 /\ fst w + snd w = 1) m ->
    (do rest <- weight_loop c lph zs r (Nat.max i e) ls' rs'; Ok (m ++ rest)) = Ok ws' -> Forall (fun w => 0 <= fst w <= 1 /\ 0 <= snd w <= 1 /\ fst w + snd w = 1) ws').
  { intros m ws' ls' rs' Hm H'. apply rbind_ok in H'. destruct H' as (rest & Hr & H'). injection H' as <-. apply Forall_app. split; auto. eapply IH; eauto. }
  assert (Rep : forall a b n, 0 <= a <= 1 -> 0 <= b <= 1 -> a + b = 1 -> Forall (fun w : R * R => 0 <= fst w <= 1 /\ 0 <= snd w <= 1 /\ fst w + snd w = 1) (repeat (a, b) n)).
  { intros a b0 n Ha Hb Hs. apply Forall_forall. intros x Hx. apply repeat_spec in Hx. subst. cbn. auto. }
  assert (Ds : forall f l, Forall (fun w : R * R => 0 <= fst w <= 1 /\ 0 <= snd w <= 1 /\ fst w + snd w = 1)
    (map (fun i : nat => let w := left_share (fst f) (snd f) (match nth_error zs i with Some y => ds_z y | None => None end) in (w, 1 - w)) l)).
  { intros f l. apply Forall_forall. intros x Hx. apply in_map_iff in Hx. destruct Hx as (j & <- & _). cbn. pose proof (left_share_range (fst f) (snd f) (match nth_error zs j with Some y => ds_z y | None => None end)). lra. }
  destruct (nth_error lph i) as [[| | |]|]; try discriminate; destruct ls as [|sl ls]; try discriminate; destruct rs as [|sr rs]; try discriminate;
    destruct (Nat.ltb (length zs) e); try discriminate;
    try (eapply K; [|exact H]; exact (Ds (_, _) _)).
  all: try (destruct ls; try discriminate; eapply K; [|exact H]; apply Rep; lra).
  all: try (destruct rs; try discriminate; eapply K; [|exact H]; apply Rep; lra).
Qed.
Lemma share_mixes : forall zl zr z l, zl <> zr -> 0 <= l <= 1 -> z = vadd (vscale l zl) (vscale (1 - l) zr) -> left_share zl zr (Some z) = l.
Proof.
  intros zl zr z l Hn Hl ->. cbn. 
  assert (N : vnorm (vsub zr zl) <> 0).
  { intros C. apply Hn. unfold vnorm in C. apply sqrt_eq_0 in C.
    - unfold vnorm2 in C. cbn in C.
      assert (Q1 : vx zr - vx zl = 0) by (apply Rplus_sqr_eq_0_l with (vy zr - vy zl); unfold Rsqr; lra).
      assert (Q2 : vy zr - vy zl = 0) by (apply Rplus_sqr_eq_0_l with (vx zr - vx zl); unfold Rsqr; lra). apply vec2_ext; lra.
    - apply vnorm2_nonneg. }
  rewrite (proj2 (Reqb_false _ _) N).
  assert (Ez : vnorm (vsub (vadd (vscale l zl) (vscale (1 - l) zr)) zl) = (1 - l) * vnorm (vsub zr zl)).
  { unfold vnorm. rewrite <- (sqrt_pow2 (1 - l)) at 2 by lra. rewrite <- sqrt_mult_alt by nra. f_equal. unfold vnorm2. cbn. ring. }
  rewrite Ez. replace (1 - (1 - l) * vnorm (vsub zr zl) / vnorm (vsub zr zl)) with l by (field; auto).
  unfold Rmin, Rmax. repeat destruct Rle_dec; lra.
Qed.
