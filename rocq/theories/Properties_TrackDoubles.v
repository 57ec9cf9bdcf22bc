(** C103: the desired trajectory of the person following controller in doubles. *)
From Coq Require Import Reals ZArith Lra Lia List Bool Sorting.Sorted Sorting.Permutation.
From Flocq Require Import Core IEEE754.BinarySingleNaN.
From Verif Require Import Prelude UnicycleFoot PersonFollowing Rounding RoundedGen Doubles DoublesSpec DoublesProofs DoublesProofs2
  TrackDoubles TrackDoublesSpec TrackDoublesProofs.
Import ListNotations.
Open Scope R_scope.

(** Whatever is loaded and cleared, the stored points are in order of time and no time is negative. *)
Theorem C103_order : forall f ops, sorts64 f -> List.Forall timed ops ->
  ordered64 (q_history ieee f ops) /\ (forall p, In p (q_history ieee f ops) -> le64 fzero (q_time p)).
Proof.
  intros f ops Hf Ho. destruct (history_ok f ops Hf Ho) as (A & B). split; [exact A|]. intros p Hp. destruct (B p Hp). apply le64_key; [apply num0|auto|rewrite key_0; auto].
Qed.
Print Assumptions C103_order.

(** A desired point is refused for a negative time, without points, before the first point and for a time that is not a number, and only then. *)
Theorem C103_fails_iff : forall f ops t, sorts64 f -> List.Forall timed ops -> let l := q_history ieee f ops in
  q_desired ieee l t = None <-> ~ number t \/ lt64 t fzero \/ l = [] \/ exists p r, l = p :: r /\ lt64 t (q_time p).
Proof.
  intros f ops t Hf Ho l. destruct (history_ok f ops Hf Ho) as (A & B). fold l in A, B. split.
  - intros H. destruct (is_nan t) eqn:Nt; [left; intros N; apply N; destruct t; try discriminate; reflexivity|]. apply number_nan in Nt. right. unfold q_desired in H. rewrite c0_zero in H. cbn [a_lt ieee] in H.
    destruct (Bltb t fzero) eqn:E0; [left; exact E0|]. right. destruct l as [|p r]; [left; reflexivity|]. right. exists p, r. split; [reflexivity|].
    destruct (Bltb t (q_time p)) eqn:E1; [exact E1|]. exfalso. destruct (q_find ieee t None (rev (p :: r))) as [[p' [n|]]|] eqn:E; try discriminate.
    pose proof (find_none _ _ _ E p) as Z. destruct (B p (or_introl eq_refl)) as (Np & _). apply t_ord in E1; auto. unfold le64 in E1. rewrite Z in E1; [discriminate|]. rewrite <- in_rev. left. reflexivity.
  - intros [H|[H|[H|(p & r & E & H)]]].
    + assert (Et : t = fnan) by (destruct t; [| |reflexivity|]; exfalso; apply H; discriminate). subst t.
      destruct (q_desired ieee l fnan) as [v|] eqn:E; [|reflexivity]. exfalso. unfold q_desired in E. destruct (a_lt ieee fnan (c0 ieee)); [discriminate|]. destruct l as [|p r]; [discriminate|]. destruct (a_lt ieee fnan _); [discriminate|].
      destruct (q_find ieee fnan None (rev (p :: r))) as [[p' n]|] eqn:F; [|discriminate]. apply find64 in F. destruct F as (_ & _ & _ & L & _). apply le64_number in L. destruct L as (_ & L). apply L. reflexivity.
    + unfold q_desired. rewrite c0_zero. cbn [a_lt ieee]. rewrite H. reflexivity.
    + rewrite H. unfold q_desired. destruct (a_lt ieee t (c0 ieee)); reflexivity.
    + rewrite E. unfold q_desired. destruct (a_lt ieee t (c0 ieee)); [reflexivity|]. cbn [a_lt ieee]. rewrite H. reflexivity.
Qed.
Print Assumptions C103_fails_iff.

(** Every answer comes from the last point not later than the time and from the one after it. *)
Theorem C103_covers : forall f ops t v, sorts64 f -> List.Forall timed ops -> number t ->
  q_desired ieee (q_history ieee f ops) t = Some v -> exists p n, around (q_history ieee f ops) t p n.
Proof.
  intros f ops t v Hf Ho Nt H. destruct (history_ok f ops Hf Ho) as (A & B). destruct (desired64_value _ _ _ B Nt H) as (_ & p & n & Ha & _). eauto.
Qed.
Print Assumptions C103_covers.

(** After the last point its value is kept, bit by bit. *)
Theorem C103_after_last : forall f ops t p, sorts64 f -> List.Forall timed ops -> around (q_history ieee f ops) t p None ->
  q_desired ieee (q_history ieee f ops) t = Some (q_y p, q_yd p).
Proof.
  intros f ops t p Hf Ho Ha. destruct (history_ok f ops Hf Ho) as (A & B). pose proof Ha as (l1 & l2 & E & Hp & _). destruct (B p) as (Np & Kp); [rewrite E; apply in_mid|].
  pose proof (le64_number _ _ Hp) as (_ & Nt). apply le64_inv in Hp. rewrite (desired64_from _ t p None A B); [reflexivity| |exact Ha]. apply le64_key; [apply num0|auto|rewrite key_0; lra].
Qed.
Print Assumptions C103_after_last.

(** Between two points the answer is, up to rounding, on the straight line between them, and it stays so when the past has been cleared any number
    of times in the meantime.  After the last point it stays the last value, exactly. *)
Theorem C103_between : forall f ops Ts t p n, sorts64 f -> List.Forall timed ops -> around (q_history ieee f ops) t p n ->
  List.Forall (fun T => le64 T t) Ts -> INR (length Ts) <= bpow radix2 40 ->
  exists y yd, q_desired ieee (q_history ieee f (ops ++ map QUpTo Ts)) t = Some (y, yd) /\
  match n with
  | None => y = q_y p /\ yd = q_yd p
  | Some n => plain p -> plain n -> on_line64 (4 * (INR (length Ts) + 1)) t p n y q_y /\ on_line64 (4 * (INR (length Ts) + 1)) t p n yd q_yd
  end.
Proof.
  intros f ops Ts t p n Hf Ho Ha HT HL. destruct (history_ok f ops Hf Ho) as (A & B). destruct Ha as (l1 & l2 & E & Hp & Hb & ->). destruct (B p) as (Np & Kp); [rewrite E; apply in_mid|].
  pose proof (le64_number _ _ Hp) as (_ & Nt). pose proof (le64_inv _ _ Hp) as K. assert (T0 : le64 fzero t) by (apply le64_key; [apply num0|auto|rewrite key_0; lra]).
  assert (P0 : 0 <= f2r (q_time p)). { destruct (fin (q_time p)) eqn:F; [rewrite <- (key_fin _ F); exact Kp|]. destruct (q_time p); try discriminate F; cbn; lra. }
  assert (F : q_history ieee f (ops ++ map QUpTo Ts) = fold_left (fun l T => fst (q_clearUpTo ieee T l)) Ts (q_history ieee f ops)).
  { unfold q_history. rewrite fold_left_app. clear. generalize (fold_left (q_call ieee f) ops (q_new ieee)). induction Ts as [|T r IH]; intros l; [reflexivity|]. cbn [map fold_left q_call]. apply IH. }
  rewrite F. assert (K0 : keeps t p l2 0 (q_history ieee f ops)) by (eapply keeps_first; eauto).
  pose proof (keeps_all t p l2 P0 Hb Ts 0 _ ltac:(lra) ltac:(rewrite Rplus_0_l; exact HL) HT K0) as K1. rewrite Rplus_0_l in K1.
  destruct (keeps_value t p l2 T0 P0 Hb _ _ (pos_INR _) HL K1) as ([y yd] & V & W). exists y, yd. split; [exact V|]. destruct l2 as [|n r]; cbn [hd_error]; [injection W as -> ->; auto|exact W].
Qed.
Print Assumptions C103_between.

(** At the time of a stored point the answer is the stored point, exactly. *)
Theorem C103_stored : forall f ops t p n, sorts64 f -> List.Forall timed ops -> around (q_history ieee f ops) t p (Some n) -> plain p -> plain n -> le64 t (q_time p) ->
  exists y yd, q_desired ieee (q_history ieee f ops) t = Some (y, yd) /\ same64 y (q_y p) /\ same64 yd (q_yd p).
Proof.
  intros f ops t p n Hf Ho Ha Pp Pn Ht. destruct (history_ok f ops Hf Ho) as (A & B). pose proof Ha as (l1 & l2 & E & Hp & Hb & Hn). destruct (B p) as (Np & Kp); [rewrite E; apply in_mid|].
  pose proof (le64_number _ _ Hp) as (_ & Nt). pose proof (le64_inv _ _ Hp) as K. apply le64_inv in Ht.
  destruct l2 as [|n' r]; [discriminate|]. injection Hn as ->. inversion Hb as [|? ? Hnt _]; subst. apply lt64_inv in Hnt. pose proof Pp as (Fp & Q1 & Q2 & Q3 & Q4). pose proof Pn as (Fn & W1 & W2 & W3 & W4).
  pose proof (fin_key _ Fn) as Kn. assert (FT : fin t = true) by (apply key_finite; [auto|lra]). rewrite (key_fin _ FT), (key_fin _ Fp) in *. rewrite (key_fin _ Fn) in Hnt.
  rewrite (desired64_from _ t p (Some n') A B); [|apply le64_key; [apply num0|auto|rewrite key_0, (key_fin _ FT); lra]|exact Ha]. cbn [value64]. unfold q_interp. eexists _, _. split; [reflexivity|].
  assert (D : bpow radix2 1000 <= bpow radix2 1002) by (apply bpow_le; lia).
  assert (M : forall a b, sized a -> sized b -> Beqb (q_mix ieee (q_ratio ieee t p n') a b) a = true).
  { intros a b (Fa & Sa) (Fb & Sb). destruct (mix_ok (q_time p) (q_time n') t Fp Fn FT Kp K Hnt a b) as ((Fx & _) & Ex); [split; [auto|lra]|split; [auto|lra]|].
    specialize (Ex ltac:(lra)). unfold q_ratio. cbn [a_div a_sub ieee]. rewrite (beq_key _ _ (fin_number _ Fx) (fin_number _ Fa)), (key_fin _ Fx), (key_fin _ Fa), Ex. apply Reqb_true. reflexivity. }
  unfold same64, q_mix2. cbn [fst snd]. auto.
Qed.
Print Assumptions C103_stored.

(** What is before an accepted clearing is gone; a refused one changes nothing. *)
Theorem C103_past_gone : forall f ops T, sorts64 f -> List.Forall timed ops -> number T -> let l := q_history ieee f ops in
  (forall l' t, q_clearUpTo ieee T l = (l', true) -> lt64 t T -> q_desired ieee l' t = None) /\ (snd (q_clearUpTo ieee T l) = false -> fst (q_clearUpTo ieee T l) = l).
Proof.
  intros f ops T Hf Ho NT l. destruct (history_ok f ops Hf Ho) as (A & B). fold l in A, B. split.
  - intros l' t H Ht. destruct (upto64 T l A B NT l' H) as [(_ & ->)|(_ & l1 & p & l2 & _ & _ & _ & ->)]; unfold q_desired; destruct (a_lt ieee t (c0 ieee)); try reflexivity.
    cbn [q_time a_lt ieee]. rewrite Ht. reflexivity.
  - unfold q_clearUpTo. destruct (a_lt ieee T (c0 ieee)); [auto|]. destruct l; [auto|]. destruct (q_desired _ _ _) as [[? ?]|]; [discriminate|auto].
Qed.
Print Assumptions C103_past_gone.

(** With exact numbers the model is the one of C11 to C13. *)
Theorem C103_exact_model : forall k t, q_desired reals (map qp_of (k_traj k)) t = option_map qr_of (pf_desired (k_traj k) t)
  /\ q_clearUpTo reals t (map qp_of (k_traj k)) = (map qp_of (k_traj (fst (pf_clearUpTo t k))), snd (pf_clearUpTo t k)).
Proof. intros k t. split; [apply desired_exact|apply upto_exact]. Qed.
Print Assumptions C103_exact_model.

(** A trajectory of three points loaded out of order, asked at 5 s after its past up to 3 s and 4 s has been cleared. *)
Definition pt103 (t x y : Z) : point64 := MkQP (fmake t 0) (fmake x 0, fmake y 0) (fzero, fmake 1 0).
Definition ops103 : list (qop f64) := [QClear; QPoint (pt103 7 9 (-4)); QPoint (pt103 0 5 2); QPoint (pt103 12 5 5)].
Lemma sized103 : forall z, (Z.abs z <= 100)%Z -> sized (fmake z 0).
Proof.
  intros z H. destruct (fmake_exact z) as (F & V); [lia|]. split; [exact F|]. rewrite V, <- abs_IZR. apply Rle_trans with (IZR 100); [apply IZR_le; exact H|].
  apply Rle_trans with (bpow radix2 7); [change (bpow radix2 7) with (IZR 128); apply IZR_le; lia|apply bpow_le; lia].
Qed.
Lemma plain103 : forall t x y, (Z.abs t <= 100)%Z -> (Z.abs x <= 100)%Z -> (Z.abs y <= 100)%Z -> plain (pt103 t x y).
Proof.
  intros t x y Ht Hx Hy. unfold plain, pt103. cbn [q_time q_y q_yd fst snd]. split; [apply fmake_exact; lia|]. split; [apply sized103; lia|]. split; [apply sized103; lia|].
  split; [|apply sized103; lia]. split; [reflexivity|]. unfold fzero, f2r, B2R. rewrite Rabs_R0. apply bpow_ge_0.
Qed.
Lemma lt103 : forall a b, (Z.abs a <= 100)%Z -> (Z.abs b <= 100)%Z -> Bltb (fmake a 0) (fmake b 0) = (a <? b)%Z.
Proof.
  intros a b Ha Hb. destruct (fmake_exact a) as (Fa & Va); [lia|]. destruct (fmake_exact b) as (Fb & Vb); [lia|].
  rewrite (blt_key _ _ (fin_number _ Fa) (fin_number _ Fb)), (key_fin _ Fa), (key_fin _ Fb), Va, Vb.
  destruct (Z.ltb_spec a b); [apply Rltb_true, IZR_lt; auto|apply Rltb_false, IZR_le; lia].
Qed.
Lemma time103 : forall a, (Z.abs a <= 100)%Z -> number (fmake a 0). Proof. intros a H. apply fin_number. apply fmake_exact. lia. Qed.
Lemma history103 : q_history ieee isort64 ops103 = [pt103 0 5 2; pt103 7 9 (-4); pt103 12 5 5].
Proof.
  assert (Z0 : forall a, (Z.abs a <= 100)%Z -> a_lt ieee (fmake a 0) (c0 ieee) = (a <? 0)%Z) by (intros a H; apply (lt103 a 0); lia).
  unfold q_history, ops103. cbn [fold_left]. repeat (progress cbn [q_call q_setPoint isort64 pt103 q_time fst app fold_right ins64 Z.ltb Z.compare Pos.compare Pos.compare_cont] || rewrite Z0 by lia || rewrite lt103 by lia). reflexivity.
Qed.
Example c103_case : let p := pt103 0 5 2 in let n := pt103 7 9 (-4) in let Ts := [fmake 3 0; fmake 4 0] in
  sorts64 isort64 /\ List.Forall timed ops103 /\ around (q_history ieee isort64 ops103) (fmake 5 0) p (Some n) /\ List.Forall (fun T => le64 T (fmake 5 0)) Ts /\ plain p /\ plain n
  /\ exists y yd, q_desired ieee (q_history ieee isort64 (ops103 ++ map QUpTo Ts)) (fmake 5 0) = Some (y, yd) /\ on_line64 12 (fmake 5 0) p n y q_y.
Proof.
  cbv zeta. assert (P1 : plain (pt103 0 5 2)) by (apply plain103; lia). assert (P2 : plain (pt103 7 9 (-4))) by (apply plain103; lia).
  assert (Tm : List.Forall timed ops103) by (repeat constructor; cbn [timed pt103 q_time]; apply time103; lia).
  assert (L : forall a b, (Z.abs a <= 100)%Z -> (Z.abs b <= 100)%Z -> (a < b)%Z -> le64 (fmake a 0) (fmake b 0)).
  { intros a b Ha Hb H. apply t_ord; try (apply time103; lia). rewrite lt103 by lia. apply Z.ltb_ge. lia. }
  assert (LT : forall a b, (Z.abs a <= 100)%Z -> (Z.abs b <= 100)%Z -> (a < b)%Z -> lt64 (fmake a 0) (fmake b 0)).
  { intros a b Ha Hb H. unfold lt64. rewrite lt103 by lia. apply Z.ltb_lt. exact H. }
  assert (Ar : around (q_history ieee isort64 ops103) (fmake 5 0) (pt103 0 5 2) (Some (pt103 7 9 (-4)))).
  { rewrite history103. exists [], [pt103 7 9 (-4); pt103 12 5 5]. split; [reflexivity|]. split; [apply L; lia|]. split; [|reflexivity]. constructor; [apply LT; lia|constructor; [apply LT; lia|constructor]]. }
  assert (HT : List.Forall (fun T => le64 T (fmake 5 0)) [fmake 3 0; fmake 4 0]) by (constructor; [apply L; lia|constructor; [apply L; lia|constructor]]).
  split; [apply isort64_sorts|]. split; [exact Tm|]. split; [exact Ar|]. split; [exact HT|]. split; [exact P1|]. split; [exact P2|].
  destruct (C103_between isort64 ops103 [fmake 3 0; fmake 4 0] _ _ _ isort64_sorts Tm Ar HT) as (y & yd & A & B).
  - cbn [length INR]. change (bpow radix2 40) with 1099511627776. lra.
  - exists y, yd. split; [exact A|]. destruct (B P1 P2) as (C & _). replace 12 with (4 * (INR (length [fmake 3 0; fmake 4 0]) + 1)) by (cbn [length INR]; ring). exact C.
Qed.

(** "The desired point never leaves the box of its two neighbours" is false: with 5 at 0 s and 5 at 7 s, the answer at 6 s is above 5. *)
Theorem C103_box_refuted : exists ops t, List.Forall timed ops /\ List.Forall (fun o => match o with QPoint p => plain p /\ q_y p = (fmake 5 0, fmake 5 0) | _ => True end) ops
  /\ exists y yd, q_desired ieee (q_history ieee isort64 ops) t = Some (y, yd) /\ lt64 (fmake 5 0) (fst y).
Proof.
  exists [QClear; QPoint (pt103 0 5 5); QPoint (pt103 7 5 5)], (fmake 6 0). split; [repeat constructor; cbn [timed pt103 q_time]; apply time103; lia|].
  split; [constructor; [exact I|]; constructor; [split; [apply plain103; lia|reflexivity]|constructor; [split; [apply plain103; lia|reflexivity]|constructor]]|].
  assert (V : match q_desired ieee (q_history ieee isort64 [QClear; QPoint (pt103 0 5 5); QPoint (pt103 7 5 5)]) (fmake 6 0) with Some (y, _) => Bltb (fmake 5 0) (fst y) | None => false end = true) by (vm_compute; reflexivity).
  destruct (q_desired ieee _ (fmake 6 0)) as [[y yd]|]; [|discriminate]. exists y, yd. split; [reflexivity|exact V].
Qed.
Print Assumptions C103_box_refuted.

(** "An accepted trajectory of numbers gives numbers" is false: a point at time infinity is accepted, and then the answer at 1 s is NaN. *)
Theorem C103_infinite_refuted : exists p, snd (q_setPoint ieee isort64 p (q_new ieee)) = true /\ number (q_time p) /\ fin (fst (q_y p)) = true
  /\ exists y yd, q_desired ieee (q_history ieee isort64 [QPoint p]) (fmake 1 0) = Some (y, yd) /\ ~ number (fst y).
Proof.
  exists (MkQP finf (fmake 5 0, fmake 5 0) (fzero, fzero)). split; [vm_compute; reflexivity|]. split; [discriminate|]. split; [vm_compute; reflexivity|].
  assert (V : match q_desired ieee (q_history ieee isort64 [QPoint (MkQP finf (fmake 5 0, fmake 5 0) (fzero, fzero))]) (fmake 1 0) with Some (y, _) => is_nan (fst y) | None => false end = true) by (vm_compute; reflexivity).
  destruct (q_desired ieee _ (fmake 1 0)) as [[y yd]|]; [|discriminate]. exists y, yd. split; [reflexivity|]. intros N. apply N. destruct (fst y); try discriminate. reflexivity.
Qed.
Print Assumptions C103_infinite_refuted.

(** A point whose time is not a number is accepted, so the comparison given to the sort is no order. *)
Theorem C103_nan_accepted : forall f l y yd, snd (q_setPoint ieee f (MkQP fnan y yd) l) = true.
Proof. intros f l y yd. reflexivity. Qed.
Print Assumptions C103_nan_accepted.
