(** The steps used for the global ZMP in doubles; the last phase of the two feet. *)
From Coq Require Import String Reals ZArith List Bool Lia Lra Sorting.Sorted.
From Flocq Require Import Core IEEE754.BinarySingleNaN.
From Verif Require Import Prelude Rounding FootPrint GenPhases GenSpec RoundedGen RoundedGenSpec RoundedGenProofs2 RoundedGenProofs3 FeetTraj ZMP
  Doubles DoublesGen DoublesSpec DoublesProofs DoublesProofs2 DoublesProofs4 DoublesExec GenProofs AnyArithSpec AnyArithProofs DcmTimesSpec DcmTimesProofs ZmpTimes ZmpTimesSpec ZmpTimesProofs ZmpTimesProofs2.
Import ListNotations.
Open Scope R_scope.

(** ** Steps *)
Section Steps.
Variable ord : list (nstep f64).
Hypothesis numbers : forall s, In s ord -> number (n_time s).
Definition landed (name : string) (t : f64) (s : nstep f64) : Prop := n_name s = name /\ le64 (n_time s) t.
Lemma lt_landed : forall s t, In s ord -> number t -> (Bltb t (n_time s) = false <-> le64 (n_time s) t).
Proof.
  intros s t Hs Ht. split; intros H.
  - apply t_ord; auto.
  - rewrite blt_key by auto. apply le64_inv in H. rcases; auto; lra.
Qed.
(** The last step named [name]; with [Some t], the last one that has landed at [t]. *)
Definition topmost (name : string) (t : option f64) (i : nat) : Prop :=
  (exists s, nth_error ord i = Some s /\ n_name s = name /\ (match t with Some t => le64 (n_time s) t | None => True end))
  /\ forall j s, nth_error ord j = Some s -> n_name s = name -> (match t with Some t => le64 (n_time s) t | None => True end) -> (j <= i)%nat.
Lemma named_ok : forall name i, (i < length ord)%nat -> (exists j s, (j <= i)%nat /\ nth_error ord j = Some s /\ n_name s = name) ->
  exists r, z_named ord name i = Ok r /\ (r <= i)%nat /\ (exists s, nth_error ord r = Some s /\ n_name s = name)
  /\ forall j s, (j <= i)%nat -> nth_error ord j = Some s -> n_name s = name -> (j <= r)%nat.
Proof.
  induction i as [|i IH]; intros Hi (j & s & Hj & Ej & Nj); cbn [z_named].
  - assert (j = 0)%nat by lia. subst j. rewrite Ej. rewrite (proj2 (String.eqb_eq _ _) Nj). exists 0%nat. split; auto. split; auto. split; [eauto|]. intros; lia.
  - destruct (nth_error ord (S i)) as [x|] eqn:Ex; [|apply nth_error_None in Ex; lia]. destruct (String.eqb_spec (n_name x) name) as [E|E].
    + exists (S i). split; auto. split; auto. split; [eauto|]. intros; lia.
    + assert (Nd : j <> S i) by (intros ->; congruence). destruct (IH ltac:(lia)) as (r & R1 & R2 & R3 & R4); [exists j, s; repeat split; auto; lia|].
      exists r. split; auto. split; [lia|]. split; auto. intros j' s' H1 H2 H3. apply (R4 j' s'); auto.
      destruct (Nat.eq_dec j' (S i)) as [->|]; [congruence|lia].
Qed.
Lemma back_ok : forall name t i, number t -> (i < length ord)%nat -> (exists j s, (j <= i)%nat /\ nth_error ord j = Some s /\ n_name s = name /\ le64 (n_time s) t) ->
  exists r, z_back ieee ord name t i = Ok r /\ (r <= i)%nat /\ (exists s, nth_error ord r = Some s /\ n_name s = name /\ le64 (n_time s) t)
  /\ forall j s, (j <= i)%nat -> nth_error ord j = Some s -> n_name s = name -> le64 (n_time s) t -> (j <= r)%nat.
Proof.
  intros name t i Ht. induction i as [|i IH]; intros Hi (j & s & Hj & Ej & Nj & Tj); cbn [z_back a_lt ieee].
  - assert (j = 0)%nat by lia. subst j. rewrite Ej. rewrite (proj2 (String.eqb_eq _ _) Nj). rewrite (proj2 (lt_landed s t (nth_error_In _ _ Ej) Ht) Tj). cbn [negb orb]. exists 0%nat. split; auto. split; auto. split; [eauto|]. intros; lia.
  - destruct (nth_error ord (S i)) as [x|] eqn:Ex; [|apply nth_error_None in Ex; lia]. pose proof (lt_landed x t (nth_error_In _ _ Ex) Ht) as Q.
    destruct (String.eqb_spec (n_name x) name) as [E|E]; cbn [negb orb]; [destruct (Bltb t (n_time x)) eqn:C|].
    + assert (Nx : ~ le64 (n_time x) t) by (intros K; apply Q in K; discriminate). assert (Nd : j <> S i) by (intros ->; rewrite Ej in Ex; injection Ex as ->; auto).
      destruct (IH ltac:(lia)) as (r & R1 & R2 & R3 & R4); [exists j, s; repeat split; auto; lia|].
      exists r. split; auto. split; [lia|]. split; auto. intros j' s' H1 H2 H3 H4. apply (R4 j' s'); auto.
      destruct (Nat.eq_dec j' (S i)) as [->|]; [rewrite H2 in Ex; injection Ex as ->; contradiction|lia].
    + pose proof (proj1 Q eq_refl). exists (S i). split; auto. split; auto. split; [eauto|]. intros; lia.
    + assert (Nd : j <> S i) by (intros ->; congruence). destruct (IH ltac:(lia)) as (r & R1 & R2 & R3 & R4); [exists j, s; repeat split; auto; lia|].
      exists r. split; auto. split; [lia|]. split; auto. intros j' s' H1 H2 H3 H4. apply (R4 j' s'); auto.
      destruct (Nat.eq_dec j' (S i)) as [->|]; [congruence|lia].
Qed.
Lemma le64_trans : forall x y z, le64 x y -> le64 y z -> le64 x z.
Proof. intros x y z A B. destruct (le64_number _ _ A), (le64_number _ _ B). apply le64_key; auto. apply le64_inv in A, B. lra. Qed.
Lemma named_top : forall name, (exists s, In s ord /\ n_name s = name) -> exists r, z_named ord name (length ord - 1) = Ok r /\ topmost name None r.
Proof.
  intros name (s & Hs & Ns). apply In_nth_error in Hs. destruct Hs as (j & Ej). assert (Hj : (j < length ord)%nat) by (apply nth_error_Some; congruence).
  destruct (named_ok name (length ord - 1) ltac:(lia)) as (r & R1 & R2 & (s' & R3 & R3') & R4); [exists j, s; repeat split; auto; lia|].
  exists r. split; auto. split; [eauto|]. intros j' x E Nx _. apply (R4 j' x); auto. assert (j' < length ord)%nat by (apply nth_error_Some; congruence). lia.
Qed.
Lemma seek_top64 : forall name t0 t i, number t -> (match t0 with None => True | Some u => le64 t u end) -> topmost name t0 i ->
  (exists s, In s ord /\ n_name s = name /\ le64 (n_time s) t) -> exists r, z_seek ieee ord name t i = Ok r /\ topmost name (Some t) r.
Proof.
  intros name t0 t i Nt Ht ((s & Es & Ns & Ts) & Hi) (x & Hx & Nx & Tx). unfold z_seek. rewrite Es. cbn [a_lt ieee].
  assert (Up : forall y, le64 (n_time y) t -> match t0 with Some u => le64 (n_time y) u | None => True end) by (intros y Hy; destruct t0 as [u|]; [exact (le64_trans _ _ _ Hy Ht)|exact Logic.I]).
  destruct (Bltb t (n_time s)) eqn:C.
  - apply In_nth_error in Hx. destruct Hx as (j & Ej). assert (Hj : (j <= i)%nat) by exact (Hi j x Ej Nx (Up x Tx)).
    destruct (back_ok name t i Nt) as (r & R1 & R2 & (s' & R3 & R3' & R3'') & R4); [apply nth_error_Some; congruence|exists j, x; auto|].
    exists r. split; auto. split; [exists s'; auto|]. intros j' y E Ny Ty. apply (R4 j' y); auto. exact (Hi j' y E Ny (Up y Ty)).
  - apply (lt_landed s t (nth_error_In _ _ Es) Nt) in C. exists i. split; auto. split; [exists s; auto|]. intros j' y E Ny Ty. exact (Hi j' y E Ny (Up y Ty)).
Qed.

Variables init dT : f64.
Hypothesis dT_ok : fin dT = true /\ bpow radix2 (-900) <= f2r dT <= bpow radix2 900.
Hypothesis init_ok : ok64 init.
Variables nameL nameR : string.
Hypothesis HL : exists s, In s ord /\ n_name s = nameL /\ le64 (n_time s) init.
Hypothesis HR : exists s, In s ord /\ n_name s = nameR /\ le64 (n_time s) init.
Definition now (i : nat) : f64 := fadd (instant dT i) init.
Lemma now_val : forall i, (Z.of_nat i <= 2 ^ 50)%Z -> fin (now i) = true /\ f2r (now i) = b64 (T (f2r dT) i + f2r init).
Proof.
  intros i H. destruct dT_ok as (Fd & Hd).
  assert (L : z_limits dT false fzero fzero fzero (length (repeat Stance i))) by (constructor; auto; try discriminate; rewrite repeat_length; auto).
  destruct (zdur_val _ _ _ _ _ _ L i H) as (F & V). change (z_dur ieee dT i) with (instant dT i) in *.
  assert (O : ok64 (instant dT i)). { split; auto. rewrite V. split; [apply T_pos; apply Hd|apply T_hi; auto; apply Hd]. }
  destruct (ok_add _ _ O init_ok) as (A & B). split; auto. unfold now. rewrite B, V. reflexivity.
Qed.
Lemma now_mono : forall i j, (i <= j)%nat -> (Z.of_nat j <= 2 ^ 50)%Z -> le64 (now i) (now j).
Proof.
  intros i j H Hj. destruct (now_val i ltac:(lia)) as (A & B). destruct (now_val j Hj) as (C & D). apply le_ok; auto. rewrite B, D. apply (r_mono _ b64_rounding).
  pose proof (T_mono (f2r dT) ltac:(apply dT_ok) i j H). lra.
Qed.
Lemma now_init : forall i, (Z.of_nat i <= 2 ^ 50)%Z -> le64 init (now i).
Proof.
  intros i H. destruct (now_val i H) as (A & B). apply le_ok; auto; [apply init_ok|]. rewrite B. rewrite <- (f2r_fix init) at 1. apply (r_mono _ b64_rounding).
  pose proof (T_pos (f2r dT) ltac:(apply dT_ok) i). lra.
Qed.
Lemma later64 : forall name i, (Z.of_nat i <= 2 ^ 50)%Z -> (exists s, In s ord /\ n_name s = name /\ le64 (n_time s) init) -> exists s, In s ord /\ n_name s = name /\ le64 (n_time s) (now i).
Proof. intros name i H (s & A & B & C). exists s. split; auto. split; auto. eapply le64_trans; [exact C|apply now_init; auto]. Qed.
Variable n : nat.
Hypothesis n_ok : (Z.of_nat n <= 2 ^ 50)%Z.
Lemma steps_ok : forall k tL tR li ri acc, (k <= n)%nat ->
  (match tL with None => True | Some u => exists m, (k <= m < n)%nat /\ u = now m end) -> topmost nameL tL li ->
  (match tR with None => True | Some u => exists m, (k <= m < n)%nat /\ u = now m end) -> topmost nameR tR ri ->
  length acc = (n - k)%nat -> (forall i a b, nth_error acc i = Some (a, b) -> topmost nameL (Some (now (k + i))) a /\ topmost nameR (Some (now (k + i))) b) ->
  exists us, z_steps ieee init dT ord nameL nameR k li ri acc = Ok us /\ length us = n
  /\ forall i a b, nth_error us i = Some (a, b) -> topmost nameL (Some (now i)) a /\ topmost nameR (Some (now i)) b.
Proof.
  induction k as [|k IH]; intros tL tR li ri acc Hk HtL HiL HtR HiR Hl Ha; cbn [z_steps].
  { exists acc. split; auto. split; [lia|]. exact Ha. }
  cbn [a_add a_mul a_size ieee]. change (fadd (fmul (fmake (Z.of_nat k) 0) dT) init) with (now k).
  assert (Nt : number (now k)) by (apply fin_number, now_val; lia).
  assert (Down : forall t0, (match t0 with None => True | Some u => exists m, (S k <= m < n)%nat /\ u = now m end) -> match t0 with None => True | Some u => le64 (now k) u end).
  { intros [u|]; auto. intros (m & Hm & ->). apply now_mono; lia. }
  destruct (seek_top64 nameL tL (now k) li Nt (Down tL HtL) HiL (later64 nameL k ltac:(lia) HL)) as (li' & E1 & T1).
  destruct (seek_top64 nameR tR (now k) ri Nt (Down tR HtR) HiR (later64 nameR k ltac:(lia) HR)) as (ri' & E2 & T2).
  rewrite E1. cbn [rbind]. rewrite E2. cbn [rbind]. apply (IH (Some (now k)) (Some (now k))); auto; try lia; try (exists k; split; auto; lia).
  - cbn. lia.
  - intros [|i] a b Ei; cbn in Ei.
    + injection Ei as <- <-. rewrite Nat.add_0_r. auto.
    + replace (k + S i)%nat with (S k + i)%nat by lia. apply Ha. exact Ei.
Qed.
Lemma global_ok : exists us, z_global ieee init dT ord nameL nameR n = Ok us /\ length us = n
  /\ forall i a b, nth_error us i = Some (a, b) -> last_landed ord nameL (now i) a /\ last_landed ord nameR (now i) b.
Proof.
  unfold z_global. destruct HL as (x & Hx & Nx & _). destruct HR as (y & Hy & Ny & _).
  assert (0 < length ord)%nat by (destruct ord; [destruct Hx|cbn; lia]). rewrite sub_size_le by lia. cbn [rbind].
  destruct (named_top nameL) as (li & E1 & T1); [eauto|]. destruct (named_top nameR) as (ri & E2 & T2); [eauto|].
  rewrite E1. cbn [rbind]. rewrite E2. cbn [rbind]. apply (steps_ok n None None); auto; [cbn [length]; lia|]. intros [|i] a b E; discriminate.
Qed.
End Steps.

(** ** The last phase of a walk is a double support *)
Lemma last_phase_switch : forall mine bs a was, length bs = (2 * length mine + 1)%nat -> StronglySorted lt (a :: bs) ->
  let i0 := nth (length bs - 1) (a :: bs) 0%nat in
  (a <= i0)%nat /\ exists m, nth_error (drawn a mine bs was) (i0 - a) = Some (if (m : bool) then SwitchIn else SwitchOut).
Proof.
  induction mine as [|m mine IH]; intros bs a was Hl Hs i0.
  - destruct bs as [|e [|? ?]]; cbn in Hl; try lia. unfold i0. cbn [length Nat.sub nth drawn]. split; [lia|]. exists was. rewrite Nat.sub_diag.
    inversion Hs as [|? ? _ H]; subst. inversion H; subst. destruct (e - a)%nat eqn:E; [lia|]. cbn [repeat nth_error]. destruct was; reflexivity.
  - destruct bs as [|b [|c r]]; cbn in Hl; try lia. inversion Hs as [|? ? H1 H2]; subst. inversion H1 as [|? ? H3 H4]; subst. inversion H2; subst. inversion H4; subst.
    destruct (IH r c m ltac:(lia) H3) as (I1 & w & I2).
    assert (Ei : nth (length r - 1) (c :: r) 0%nat = i0).
    { unfold i0. cbn [length]. replace (S (S (length r)) - 1)%nat with (S (S (length r - 1))) by lia. reflexivity. }
    rewrite Ei in I1, I2. split; [lia|]. exists w. cbn [drawn]. rewrite nth_error_app2 by (rewrite repeat_length; lia). rewrite repeat_length.
    rewrite nth_error_app2 by (rewrite repeat_length; lia). rewrite repeat_length. replace (i0 - a - (b - a) - (c - b))%nat with (i0 - c)%nat by lia. exact I2.
Qed.

(** Its length is the rounded duration of the final switch. *)
Lemma last_phase_length : forall (N : Type) (A : arith N) s pause left right init dT srt ord ph, n_generate A s pause left right init dT srt = Ok (ord, ph) ->
  exists es, a_round A (a_div A (s q_terminal) dT) = Ok es /\ last (ph_shift ph) 0%nat = (last_begin (ph_shift ph) + es)%nat.
Proof.
  intros N A s pause left right init dT srt ord ph H. unfold n_generate in H.
  destruct (Nat.ltb _ _); [discriminate|]. destruct (Nat.ltb _ _); [discriminate|]. destruct (String.eqb _ _); [discriminate|].
  destruct (atmost0 A dT); [discriminate|].
  destruct (nf_steps left) as [|(tl & x) l]; [discriminate|]. destruct (nf_steps right) as [|(tr & y) r]; [discriminate|].
  destruct (a_lt A init _); [discriminate|]. destruct (n_order A srt) as [o| |] eqn:E; cbn [rbind] in H; try discriminate.
  destruct (n_create _ _ _ _ _ _ _ _ _ _) as [p| |] eqn:Ec; cbn [rbind] in H; try discriminate. injection H as <- <-. clear E.
  unfold n_create in Ec. destruct o as [|a [|b [|c o]]]; try discriminate.
  - destruct (a_round A (a_div A (s q_terminal) dT)) as [es| |]; cbn [rbind] in Ec; try discriminate. injection Ec as <-. exists es. auto.
  - destruct (a_ceil A _) as [z| |]; cbn [rbind] in Ec; try discriminate.
    destruct (n_loop A s pause dT _ _ (a_eq A tl tr) 2 (c :: o) _) as [st| |] eqn:E; cbn [rbind] in Ec; try discriminate.
    destruct (a_round A (a_div A (s q_terminal) dT)) as [es| |]; cbn [rbind] in Ec; try discriminate.
    destruct (sub_size (x_cur st + es) 1) as [ml| |] eqn:Em; cbn [rbind] in Ec; try discriminate. injection Ec as <-. exists es. split; auto.
    apply (loop_inv _ A s pause dT _ _ (a_eq A tl tr) (c :: o) 2 []) in E.
    2:{ constructor; cbn [x_shift x_lastLeft rev]; auto; [exists []; repeat split; auto|repeat constructor]. }
    destruct E as [(bs & I1 & I2 & I3 & _) _ _]. cbn [ph_shift]. rewrite last_app1. unfold last_begin. rewrite I1, app_length. cbn [length].
    replace (S (length bs) + 1 - 2)%nat with (length bs) by lia. rewrite app_nth1 by (cbn [length]; lia). f_equal. rewrite <- I3.
    clear. rewrite <- (last_shift bs 0%nat 0%nat). replace (length bs) with (length (0%nat :: bs) - 1)%nat by (cbn [length]; lia). generalize (0%nat :: bs). intros l.
    induction l as [|a [|b r] IH]; auto. change (last (a :: b :: r) 0%nat) with (last (b :: r) 0%nat). rewrite IH. cbn [length Nat.sub nth]. rewrite Nat.sub_0_r. reflexivity.
Qed.
