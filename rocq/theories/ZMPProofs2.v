(** Lemmas about the ZMP trajectories: local ZMP, recorded states, foot lookup. *)
From Coq Require Import String Reals Lra Lia ZArith List Bool Sorting.Sorted Sorting.Permutation.
From Flocq Require Import Core.Raux.
From Verif Require Import Prelude EvalTac Rounding FootPrint GenPhases GenSpec GenProofs GenProofs2 FeetTraj FeetSpec FeetProofs
  CoMHeightSpec CoMHeightProofs ZMP ZMPSpec ZMPProofs.
Import ListNotations.
Open Scope R_scope.

(** ** Local ZMP *)
Section Local.
Variable spl : R -> R -> R -> R -> R -> R -> pva.
Variable Z : ztimes.
Variable dT : R.
Hypothesis HdT : 0 < dT.
Hypothesis Hend : 0 < z_end Z.
Hypothesis Hnom : 0 < z_nom Z.

Definition spv2 (T : R) (a b : vec2) (k : nat) : pva2 :=
  MkP2 (spv spl dT T (still (vx a)) (vx b) k) (spv spl dT T (still (vy a)) (vy b) k).
Definition out_time (last : bool) (n : nat) : R :=
  if pauses Z dT n then z_end Z else if last then INR n * dT else INR n * dT / 2.
Definition out_count (last : bool) (n : nat) : nat := Z.to_nat (Zceil (out_time last n / dT)).
Definition lval (zs zw : vec2) (first last : bool) (p : phase) (n k : nat) : pva2 :=
  match p with
  | Stance => spv2 (INR n * dT) zs zw k
  | SwitchOut => if first then still2 zs
                 else if Nat.ltb k (out_count last n) then spv2 (out_time last n) zw zs k else still2 zs
  | _ => still2 zs
  end.

Lemma out_time_bounds : forall last n, (0 < n)%nat -> 0 < out_time last n <= INR n * dT.
Proof.
  intros last n Hn. pose proof (n_time dT HdT n Hn) as HT. unfold out_time. destruct (pauses Z dT n) eqn:Ep.
  - unfold pauses in Ep. apply andb_prop in Ep. destruct Ep as [_ E]. apply Rltb_true in E.
    pose proof (Rmax_r (z_max Z) (z_end Z + z_nom Z)). lra.
  - destruct last; lra.
Qed.
Lemma out_count_ok : forall last n, (0 < n)%nat -> size_ceil (out_time last n / dT) = Ok (out_count last n) /\ (out_count last n <= n)%nat
  /\ forall k, (k < out_count last n)%nat -> INR k * dT <= out_time last n.
Proof.
  intros last n Hn. destruct (out_time_bounds last n Hn) as [B1 B2]. set (T := out_time last n) in *.
  assert (Q : 0 < T / dT) by (apply Rdiv_lt_0_compat; auto).
  assert (C0 : (0 < Zceil (T / dT))%Z). { apply lt_IZR. eapply Rlt_le_trans; [exact Q|apply Zceil_ub]. }
  assert (E : T / dT * dT = T) by (field; lra).
  unfold size_ceil, to_size, out_count. fold T. destruct (Z.ltb_spec (Zceil (T / dT)) 0); [lia|]. split; [reflexivity|].
  split.
  - apply Nat2Z.inj_le. rewrite Z2Nat.id by lia. apply Zceil_glb. rewrite <- INR_IZR_INZ.
    apply Rmult_le_reg_r with dT; [auto|]. rewrite E. exact B2.
  - intros k Hk. assert (Hz : (Z.of_nat k <= Zceil (T / dT) - 1)%Z) by lia. apply IZR_le in Hz. rewrite minus_IZR, <- INR_IZR_INZ in Hz.
    pose proof (Zceil_lb (T / dT)) as L. rewrite <- E. apply Rmult_le_compat_r; [lra|]. lra.
Qed.

Lemma combine_map : forall (A B C D : Type) (f : A -> B) (g : A -> C) (h : B * C -> D) l,
  map h (combine (map f l) (map g l)) = map (fun k => h (f k, g k)) l.
Proof. induction l as [|a l IH]; cbn; [reflexivity|]. f_equal. exact IH. Qed.

Lemma local_piece_ok : forall zs zw first last p a b, (a < b)%nat ->
  local_piece spl Z dT zs zw first last p a b = Ok (map (lval zs zw first last p (b - a)) (seq 0 (b - a))).
Proof.
  intros zs zw first last p a b Hab. set (n := (b - a)%nat). assert (Hn : (0 < n)%nat) by (unfold n; lia).
  assert (R0 : forall q, (forall k, lval zs zw first last q n k = still2 zs) -> Ok (repeat (still2 zs) n) = Ok (map (lval zs zw first last q n) (seq 0 n))).
  { intros q Hq. rewrite (map_const _ _ _ (still2 zs)), seq_length; auto. }
  destruct p; cbn [local_piece].
  - rewrite sub_size_le by lia. cbn [rbind]. fold n. rewrite spline_pts_ok by (apply n_time; auto). cbn [rbind].
    rewrite spline_pts_ok by (apply n_time; auto). cbn [rbind]. rewrite combine_map. reflexivity.
  - fold n. apply R0. reflexivity.
  - destruct first eqn:Ef; [fold n; apply R0; reflexivity|]. rewrite sub_size_le by lia. cbn [rbind]. fold n.
    change (if pauses Z dT n then z_end Z else if last then INR n * dT else INR n * dT / 2) with (out_time last n).
    destruct (out_count_ok last n Hn) as (E & L & _). rewrite E. cbn [rbind].
    destruct (out_time_bounds last n Hn) as [B1 _].
    rewrite spline_pts_ok by auto. cbn [rbind]. rewrite spline_pts_ok by auto. cbn [rbind]. rewrite combine_map. f_equal.
    rewrite (seq_split 0 n (out_count last n)) by lia. rewrite map_app. f_equal.
    + apply map_ext_in. intros k Hk. apply in_seq in Hk. cbn [lval fst snd]. destruct (Nat.ltb_spec k (out_count last n)); [reflexivity|lia].
    + rewrite (map_const _ _ _ (still2 zs)), seq_length; [reflexivity|]. intros k Hk. apply in_seq in Hk. cbn [lval].
      destruct (Nat.ltb_spec k (out_count last n)); [lia|reflexivity].
  - fold n. apply R0. reflexivity.
Qed.

Hypothesis Hspl : spline_contract spl.
Lemma seg_refl : forall a b, on_segment a b a.
Proof. intros a b. exists 1. split; [lra|]. apply vec2_ext; cbn; ring. Qed.
Lemma seg_sym : forall a b p, on_segment a b p -> on_segment b a p.
Proof. intros a b p (l & H & ->). exists (1 - l). split; [lra|]. apply vec2_ext; cbn; ring. Qed.
Lemma spv2_segment : forall T a b k, 0 < T -> INR k * dT <= T -> on_segment a b (q_p (spv2 T a b k)).
Proof.
  intros T a b k HT Hk. assert (Ht : 0 <= INR k * dT <= T) by (split; [apply Rmult_le_pos; [apply pos_INR|lra]|auto]).
  unfold q_p, spv2, spv. cbn [q_x q_y still p_p p_v p_a].
  rewrite (hermite_form T (vx a) (vx b) _ HT (Hspl T (vx a) 0 0 (vx b) HT) _ Ht).
  rewrite (hermite_form T (vy a) (vy b) _ HT (Hspl T (vy a) 0 0 (vy b) HT) _ Ht). cbn [p_p].
  set (u := smooth (INR k * dT / T)). assert (U : 0 <= u <= 1) by (apply smooth_range, norm_range; auto).
  exists (1 - u). split; [lra|]. apply vec2_ext; cbn; ring.
Qed.
Lemma lval_segment : forall zs zw first last p n k, (k < n)%nat -> on_segment zs zw (q_p (lval zs zw first last p n k)).
Proof.
  intros zs zw first last p n k Hk. assert (Hn : (0 < n)%nat) by lia.
  assert (S0 : on_segment zs zw (q_p (still2 zs))). { destruct zs as [x y]. apply seg_refl. }
  destruct p; cbn [lval]; auto.
  - apply spv2_segment; [apply n_time; auto|apply k_time; auto; lia].
  - destruct first; auto. destruct (Nat.ltb_spec k (out_count last n)) as [H|H]; auto. apply seg_sym, spv2_segment; [apply out_time_bounds; auto|].
    destruct (out_count_ok last n Hn) as (_ & _ & K). auto.
Qed.
End Local.

(** ** Recorded states *)
Lemma upd_length : forall (A : Type) (l : list A) i x, length (upd l i x) = length l.
Proof. induction l as [|a l IH]; intros [|i] x; cbn; auto. Qed.
Lemma upd_nth : forall (A : Type) (l : list A) i x j, (i < length l)%nat -> nth_error (upd l i x) j = if Nat.eqb i j then Some x else nth_error l j.
Proof.
  induction l as [|a l IH]; intros [|i] x [|j] H; cbn in *; try lia; try reflexivity. apply IH. lia.
Qed.
Lemma record_ok : forall out mp inst m st, StronglySorted lt mp -> (m < length mp)%nat -> length st = length mp ->
  (forall j p, nth_error mp j = Some p -> (j < m)%nat -> exists w, nth_error st j = Some (Some w)) ->
  (forall p, nth_error mp m = Some p -> (inst <= p)%nat \/ (S m = length mp /\ exists w, nth_error st m = Some (Some w))) ->
  exists st', record_states mp inst out m st = Ok st' /\ length st' = length mp
  /\ (forall j, (j < m)%nat -> nth_error st' j = nth_error st j)
  /\ (forall j p x, (m <= j)%nat -> nth_error mp j = Some p -> (inst <= p)%nat -> nth_error out (p - inst) = Some x -> nth_error st' j = Some (Some x))
  /\ (forall p, nth_error mp m = Some p -> (p < inst)%nat -> nth_error st' m = nth_error st m).
Proof.
  induction out as [|x out IH]; intros mp inst m st Hs Hm Hl Hd Hc; cbn [record_states].
  { exists st. repeat split; auto. intros j p y _ _ _ E. destruct (p - inst)%nat; discriminate. }
  destruct (nth_error mp m) as [p|] eqn:Ep; [|apply nth_error_None in Ep; lia].
  assert (Mono : forall i j a b, (i < j)%nat -> nth_error mp i = Some a -> nth_error mp j = Some b -> (a < b)%nat).
  { clear -Hs. induction Hs as [|h t Hs IH Hf]; intros i j a b Hij E1 E2; [destruct i; discriminate|].
    destruct i as [|i]; destruct j as [|j]; try lia; cbn in E1, E2.
    - injection E1 as <-. rewrite Forall_forall in Hf. apply Hf. eapply nth_error_In; eauto.
    - apply (IH i j); auto; lia. }
  destruct (Nat.eqb_spec inst p) as [->|N].
  - destruct (Nat.ltb_spec m (length mp - 1)) as [L|L].
    + destruct (IH mp (S p) (S m) (upd st m (Some x)) Hs ltac:(lia)) as (st' & E & L' & K1 & K2 & K3).
      * rewrite upd_length. auto.
      * intros j q E Hj. destruct (Nat.eq_dec j m) as [->|Nj].
        { exists x. rewrite upd_nth, Nat.eqb_refl by lia. reflexivity. }
        destruct (Hd j q E ltac:(lia)) as (w & W). exists w. rewrite upd_nth by lia. destruct (Nat.eqb_spec m j); [lia|auto].
      * intros q Eq. left. pose proof (Mono m (S m) p q ltac:(lia) Ep Eq). lia.
      * exists st'. rewrite E. split; auto. split; auto. split.
        { intros j Hj. rewrite K1 by lia. rewrite upd_nth by lia. destruct (Nat.eqb_spec m j); [lia|auto]. }
        split.
        { intros j q y Hj Eq Hq Ey. destruct (Nat.eq_dec j m) as [->|Nj].
          - assert (q = p) by congruence. subst q. replace (p - p)%nat with 0%nat in Ey by lia. cbn in Ey. injection Ey as <-.
            rewrite K1 by lia. rewrite upd_nth, Nat.eqb_refl by lia. reflexivity.
          - pose proof (Mono m j p q ltac:(lia) Ep Eq). apply (K2 j q y); auto; try lia.
            replace (q - p)%nat with (S (q - S p)) in Ey by lia. exact Ey. }
        intros q Eq Hq. assert (q = p) by congruence. lia.
    + destruct (IH mp (S p) m (upd st m (Some x)) Hs Hm) as (st' & E & L' & K1 & K2 & K3).
      * rewrite upd_length. auto.
      * intros j q E Hj. destruct (Hd j q E ltac:(lia)) as (w & W). exists w. rewrite upd_nth by lia. destruct (Nat.eqb_spec m j); [lia|auto].
      * intros q Eq. right. split; [lia|]. exists x. rewrite upd_nth, Nat.eqb_refl by lia. reflexivity.
      * exists st'. rewrite E. split; auto. split; auto. split.
        { intros j Hj. rewrite K1 by lia. rewrite upd_nth by lia. destruct (Nat.eqb_spec m j); [lia|auto]. }
        split.
        { intros j q y Hj Eq Hq Ey. assert (j = m). { assert (j < length mp)%nat by (apply nth_error_Some; congruence). lia. } subst j.
          assert (q = p) by congruence. subst q. replace (p - p)%nat with 0%nat in Ey by lia. cbn in Ey. injection Ey as <-.
          rewrite (K3 p Ep) by lia. rewrite upd_nth, Nat.eqb_refl by lia. reflexivity. }
        intros q Eq Hq. assert (q = p) by congruence. lia.
  - destruct (IH mp (S inst) m st Hs Hm Hl Hd) as (st' & E & L' & K1 & K2 & K3).
    + intros q Eq. assert (q = p) by congruence. subst q. destruct (Hc p eq_refl) as [H|H]; [left; lia|right; auto].
    + exists st'. split; auto. split; auto. split; auto. split.
      * intros j q y Hj Eq Hq Ey. destruct (Nat.eq_dec q inst) as [->|Nq].
        { exfalso. destruct (Hc p eq_refl) as [H|(H & _)].
          - destruct (Nat.eq_dec j m) as [->|Nj]; [congruence|]. pose proof (Mono m j p inst ltac:(lia) Ep Eq). lia.
          - assert (j = m). { assert (j < length mp)%nat by (apply nth_error_Some; congruence). lia. } congruence. }
        apply (K2 j q y); auto; try lia. replace (q - inst)%nat with (S (q - S inst)) in Ey by lia. exact Ey.
      * intros q Eq Hq. apply (K3 q); [congruence|lia].
Qed.
Lemma init_states_ok : forall mp out, mp <> [] -> StronglySorted lt mp -> (forall m, In m mp -> (m < length out)%nat) ->
  exists st, init_states mp out = Ok st /\ length st = length mp
  /\ forall j p, nth_error mp j = Some p -> exists x, nth_error out p = Some x /\ nth_error st j = Some (Some x).
Proof.
  intros mp out Hn Hs Hb. destruct (record_ok out mp 0 0 (repeat None (length mp)) Hs) as (st & E & L & _ & K & _).
  - destruct mp; [congruence|cbn; lia].
  - apply repeat_length.
  - intros; lia.
  - intros; left; lia.
  - exists st. split; auto. split; auto. intros j p Ej. pose proof (Hb p (nth_error_In _ _ Ej)) as Hp.
    destruct (nth_error out p) as [x|] eqn:Ex; [|apply nth_error_None in Ex; lia]. exists x. split; auto.
    apply (K j p x); auto; try lia. rewrite Nat.sub_0_r. exact Ex.
Qed.

(** ** Foot lookup *)
(** [i] is the largest index up to [b] of a step named [n] with impact time at most [t]. *)
Definition top_index (ord : list step) (n : string) (t : option R) (i : nat) : Prop :=
  let ok s := st_name s = n /\ match t with None => True | Some t => st_time s <= t end in
  (exists s, nth_error ord i = Some s /\ ok s) /\ forall j s, nth_error ord j = Some s -> ok s -> (j <= i)%nat.

Lemma last_named_ok : forall ord n i, (i < length ord)%nat -> (exists j s, (j <= i)%nat /\ nth_error ord j = Some s /\ st_name s = n) ->
  exists r, last_named ord n i = Ok r /\ (r <= i)%nat /\ (exists s, nth_error ord r = Some s /\ st_name s = n)
  /\ forall j s, (j <= i)%nat -> nth_error ord j = Some s -> st_name s = n -> (j <= r)%nat.
Proof.
  induction i as [|i IH]; intros Hi (j & s & Hj & Ej & Nj); cbn [last_named].
  - assert (j = 0)%nat by lia. subst j. rewrite Ej. rewrite (proj2 (String.eqb_eq _ _) Nj). exists 0%nat. split; auto. split; auto. split; [eauto|]. intros; lia.
  - destruct (nth_error ord (S i)) as [x|] eqn:Ex; [|apply nth_error_None in Ex; lia]. destruct (String.eqb_spec (st_name x) n) as [E|E].
    + exists (S i). split; auto. split; auto. split; [eauto|]. intros; lia.
    + assert (Nd : j <> S i) by (intros ->; congruence). destruct (IH ltac:(lia)) as (r & R1 & R2 & R3 & R4); [exists j, s; repeat split; auto; lia|].
      exists r. split; auto. split; [lia|]. split; auto. intros j' s' H1 H2 H3. apply (R4 j' s'); auto.
      destruct (Nat.eq_dec j' (S i)) as [->|]; [congruence|lia].
Qed.
Lemma seek_back_ok : forall ord n t i, (i < length ord)%nat -> (exists j s, (j <= i)%nat /\ nth_error ord j = Some s /\ st_name s = n /\ st_time s <= t) ->
  exists r, seek_back ord n t i = Ok r /\ (r <= i)%nat /\ (exists s, nth_error ord r = Some s /\ st_name s = n /\ st_time s <= t)
  /\ forall j s, (j <= i)%nat -> nth_error ord j = Some s -> st_name s = n -> st_time s <= t -> (j <= r)%nat.
Proof.
  induction i as [|i IH]; intros Hi (j & s & Hj & Ej & Nj & Tj); cbn [seek_back].
  - assert (j = 0)%nat by lia. subst j. rewrite Ej. rewrite (proj2 (String.eqb_eq _ _) Nj), rgtb_f by lra. cbn. exists 0%nat. split; auto. split; auto. split; [eauto|]. intros; lia.
  - destruct (nth_error ord (S i)) as [x|] eqn:Ex; [|apply nth_error_None in Ex; lia].
    destruct (String.eqb_spec (st_name x) n) as [E|E]; cbn [negb orb]; [destruct (Rgtb (st_time x) t) eqn:C|].
    + apply Rltb_true in C. assert (Nd : j <> S i) by (intros ->; rewrite Ej in Ex; injection Ex as ->; lra).
      destruct (IH ltac:(lia)) as (r & R1 & R2 & R3 & R4); [exists j, s; repeat split; auto; lia|].
      exists r. split; auto. split; [lia|]. split; auto. intros j' s' H1 H2 H3 H4. apply (R4 j' s'); auto.
      destruct (Nat.eq_dec j' (S i)) as [->|]; [rewrite H2 in Ex; injection Ex as ->; lra|lia].
    + apply Rltb_false in C. exists (S i). split; auto. split; auto. split; [eauto|]. intros; lia.
    + assert (Nd : j <> S i) by (intros ->; congruence). destruct (IH ltac:(lia)) as (r & R1 & R2 & R3 & R4); [exists j, s; repeat split; auto; lia|].
      exists r. split; auto. split; [lia|]. split; auto. intros j' s' H1 H2 H3 H4. apply (R4 j' s'); auto.
      destruct (Nat.eq_dec j' (S i)) as [->|]; [congruence|lia].
Qed.

Lemma last_named_top : forall ord n, (exists s, In s ord /\ st_name s = n) ->
  exists r, last_named ord n (length ord - 1) = Ok r /\ top_index ord n None r.
Proof.
  intros ord n (s & Hs & Ns). apply In_nth_error in Hs. destruct Hs as (j & Ej). assert (Hj : (j < length ord)%nat) by (apply nth_error_Some; congruence).
  destruct (last_named_ok ord n (length ord - 1) ltac:(lia)) as (r & R1 & R2 & (s' & R3 & R3') & R4); [exists j, s; repeat split; auto; lia|].
  exists r. split; auto. split; [eauto|]. intros j' x E [Nx _]. apply (R4 j' x); auto. assert (j' < length ord)%nat by (apply nth_error_Some; congruence). lia.
Qed.
Lemma seek_top : forall ord n t0 t i, (match t0 with None => True | Some u => t <= u end) -> top_index ord n t0 i ->
  (exists s, In s ord /\ st_name s = n /\ st_time s <= t) ->
  exists r, seek ord n t i = Ok r /\ top_index ord n (Some t) r.
Proof.
  intros ord n t0 t i Ht [(s & Es & Ns & Ts) Hi] (x & Hx & Nx & Tx). unfold seek. rewrite Es. destruct (Rgtb (st_time s) t) eqn:C.
  - apply Rltb_true in C. apply In_nth_error in Hx. destruct Hx as (j & Ej).
    assert (Hj : (j <= i)%nat). { apply (Hi j x Ej). split; auto. destruct t0; lra. }
    destruct (seek_back_ok ord n t i) as (r & R1 & R2 & (s' & R3 & R3' & R3'') & R4); [apply nth_error_Some; congruence|exists j, x; auto|].
    exists r. split; auto. split; [exists s'; auto|]. intros j' y E [Ny Ty]. apply (R4 j' y); auto. apply (Hi j' y E). split; auto. destruct t0; lra.
  - apply Rltb_false in C. exists i. split; auto. split; [exists s; auto|]. intros j' y E [Ny Ty]. apply (Hi j' y E). split; auto. destruct t0; lra.
Qed.

Section GlobalSpec.
Variable spl : R -> R -> R -> R -> R -> R -> pva.
Variables initT dT : R.
Hypothesis HdT : 0 < dT.
Variable s1 : nat.
Variables oldL oldR : step.
Variable ord : list step.
Variables nameL nameR : string.
Variables wl wr : list pva.
Variables zl zr : list pva2.
Hypothesis HL : exists s, In s ord /\ st_name s = nameL /\ st_time s <= initT.
Hypothesis HR : exists s, In s ord /\ st_name s = nameR /\ st_time s <= initT.
Variable n : nat.
Hypothesis Lwl : length wl = n.
Hypothesis Lwr : length wr = n.
Hypothesis Lzl : length zl = n.
Hypothesis Lzr : length zr = n.

(** The world ZMP of instant [i] is computed from the steps found for it. *)
Definition world_at (i : nat) (w : world) : Prop :=
  let t := INR i * dT + initT in
  exists li ri sL sR a b x y, top_index ord nameL (Some t) li /\ top_index ord nameR (Some t) ri
  /\ nth_error ord li = Some sL /\ nth_error ord ri = Some sR
  /\ nth_error wl i = Some a /\ nth_error wr i = Some b /\ nth_error zl i = Some x /\ nth_error zr i = Some y
  /\ w = world_sample (Nat.ltb i s1) (correction spl dT s1 i) oldL oldR sL sR a b x y.

Lemma later : forall i nm, (exists s, In s ord /\ st_name s = nm /\ st_time s <= initT) ->
  exists s, In s ord /\ st_name s = nm /\ st_time s <= INR i * dT + initT.
Proof.
  intros i nm (s & H1 & H2 & H3). exists s. repeat split; auto. assert (0 <= INR i * dT) by (apply Rmult_le_pos; [apply pos_INR|lra]). lra.
Qed.

Lemma global_loop_ok : forall k tL tR li ri acc, (k <= n)%nat ->
  (match tL with None => True | Some u => INR k * dT + initT <= u + dT end) -> top_index ord nameL tL li ->
  (match tR with None => True | Some u => INR k * dT + initT <= u + dT end) -> top_index ord nameR tR ri ->
  length acc = (n - k)%nat -> (forall i w, nth_error acc i = Some w -> world_at (k + i) w) ->
  exists W, global_loop spl initT dT s1 oldL oldR ord nameL nameR wl wr zl zr k li ri acc = Ok W /\ length W = n
  /\ forall i w, nth_error W i = Some w -> world_at i w.
Proof.
  induction k as [|k IH]; intros tL tR li ri acc Hk HtL HiL HtR HiR Hl Ha; cbn [global_loop].
  { exists acc. split; auto. split; [lia|]. exact Ha. }
  set (t := INR k * dT + initT).
  assert (Ek : INR (S k) * dT + initT = t + dT) by (unfold t; rewrite S_INR; ring).
  destruct (seek_top ord nameL tL t li) as (li' & E1 & T1); auto; [destruct tL; lra|unfold t; apply later, HL|].
  destruct (seek_top ord nameR tR t ri) as (ri' & E2 & T2); auto; [destruct tR; lra|unfold t; apply later, HR|].
  fold t. rewrite E1. cbn [rbind]. rewrite E2. cbn [rbind].
  pose proof T1 as T1'. pose proof T2 as T2'. destruct T1' as [(sL & EL & _) _]. destruct T2' as [(sR & ER & _) _].
  destruct (nth_error wl k) as [a|] eqn:Ea; [|apply nth_error_None in Ea; lia].
  destruct (nth_error wr k) as [b|] eqn:Eb; [|apply nth_error_None in Eb; lia].
  destruct (nth_error zl k) as [x|] eqn:Ex; [|apply nth_error_None in Ex; lia].
  destruct (nth_error zr k) as [y|] eqn:Ey; [|apply nth_error_None in Ey; lia].
  rewrite EL, ER. apply (IH (Some t) (Some t)); auto; try lia; try (fold t; lra).
  - cbn. lia.
  - intros [|i] w Ei; cbn in Ei.
    + injection Ei as <-. rewrite Nat.add_0_r. exists li', ri', sL, sR, a, b, x, y. repeat (split; [assumption|]). reflexivity.
    + replace (k + S i)%nat with (S k + i)%nat by lia. apply Ha. exact Ei.
Qed.

Lemma global_zmp_ok : exists W, global_zmp spl initT dT s1 oldL oldR ord nameL nameR wl wr zl zr = Ok W /\ length W = n
  /\ forall i w, nth_error W i = Some w -> world_at i w.
Proof.
  unfold global_zmp. destruct HL as (x & Hx & Nx & _). destruct HR as (y & Hy & Ny & _).
  assert (0 < length ord)%nat by (destruct ord; [destruct Hx|cbn; lia]). rewrite sub_size_le by lia. cbn [rbind].
  destruct (last_named_top ord nameL) as (li & E1 & T1); [eauto|]. destruct (last_named_top ord nameR) as (ri & E2 & T2); [eauto|].
  rewrite E1. cbn [rbind]. rewrite E2. cbn [rbind]. rewrite Lzl.
  apply (global_loop_ok n None None); auto; try lia; cbn; try lia. intros [|i] w E; discriminate.
Qed.
End GlobalSpec.
