(** C101: the speed limits of the controllers hold for doubles. *)
From Coq Require Import String Reals ZArith List Bool Lia Lra.
From Flocq Require Import Core IEEE754.BinarySingleNaN.
From Verif Require Import Prelude Rounding RoundedGen RoundedGenSpec RoundedGenProofs2 RoundedGenProofs3 Controllers ControlSpec
  Doubles DoublesGen DoublesSpec DoublesProofs DoublesProofs2 CtrlDoubles CtrlDoublesSpec CtrlDoublesProofs.
Import ListNotations.
Open Scope R_scope.
Lemma arg_ok : forall x, Bleb fzero x = true -> arg64 x = Some x.
Proof. intros x H. unfold arg64. rewrite H. reflexivity. Qed.
Ltac seen := unfold sat64, turn64, back64, side64; cbn [last_of]; repeat (rewrite arg_ok by (vm_compute; reflexivity)).

(** Whatever the controller asks for, infinities included, every command is within the limits last accepted. *)
Theorem C101_limits : forall l lin ang raw sq c s at2, List.Forall tame l -> sat64 l = Some (lin, ang) ->
  moderate lin ang (turn64 l) (back64 l) (side64 l) -> numbers raw ->
  let out := d_control ieee (ieee_maths sq c s at2) (settings ieee l) raw in
  between64 ang (d_ang out) ang
  /\ between64 (fmul (back64 l) lin) (d_fwd out) lin
  /\ between64 (fmul (side64 l) lin) (d_lat out) (fmul (side64 l) lin).
Proof.
  intros l lin ang raw sq c s at2 T Q MD (N1 & N2 & N3) out. assert (MD' := MD). destruct MD' as (A1 & A2 & A3 & A4 & A5 & A6).
  destruct (angular_ok l lin ang raw sq c s at2 T Q N2) as (B1 & B2 & _).
  destruct (lateral_ok l lin ang raw sq c s at2 T Q MD N3) as (C1 & C2 & C3 & C4 & _).
  destruct (forward_ok l lin ang raw sq c s at2 T Q MD N1 N2) as (D1 & D2 & D3 & D4 & D5 & D6 & _). fold out in B1, B2, C3, C4, D1, D2, D3, D4, D5, D6.
  destruct (key_mul (back64 l) lin A3 A1) as (E1 & E2). destruct (factors_nonneg l T) as (_ & K2 & _). rewrite key_fin in K2 by auto.
  repeat split; apply le64_key; auto using num_opp, fin_number; rewrite ?key_opp; try lra.
  - rewrite E2. rewrite D4 in D6. eapply Rle_trans; [|apply D6]. apply Ropp_le_contravar, clamp_mono, (r_mono _ b64_rounding), Rmult_le_compat_l; lra.
  - rewrite (key_fin lin) by auto. lra.
Qed.
Print Assumptions C101_limits.

(** Forward speed while turning: the documented limit up to 2^-49 of it; backwards its multiple. *)
Theorem C101_slow_when_turning : forall l lin ang raw sq c s at2, List.Forall tame l -> sat64 l = Some (lin, ang) ->
  moderate lin ang (turn64 l) (back64 l) (side64 l) -> f2r (turn64 l) <= bpow radix2 400 -> fin (d_fwd raw) = true -> number (d_ang raw) ->
  let out := d_control ieee (ieee_maths sq c s at2) (settings ieee l) raw in
  let V := turning_speed (f2r lin) (f2r (turn64 l)) (f2r (d_ang out)) in
  let hi := V * (1 + bpow radix2 (-49)) + eta64 in
  fin (d_fwd out) = true /\ - (f2r (back64 l) * hi * (1 + u64) + eta64) <= f2r (d_fwd out) <= hi.
Proof.
  intros l lin ang raw sq c s at2 T Q MD HT F N out V hi. assert (MD' := MD). destruct MD' as (A1 & A2 & A3 & A4 & A5 & A6).
  destruct (forward_ok l lin ang raw sq c s at2 T Q MD (fin_number _ F) N) as (D1 & D2 & D3 & D4 & D5 & D6 & _ & D7 & D8). fold out in D1, D2, D3, D4, D5, D6, D7, D8.
  specialize (D8 HT). fold V in D8. set (v := d_speed ieee _ _ (d_ang out)) in *. set (neg := fmul (fopp (back64 l)) v) in *.
  destruct (factors_nonneg l T) as (_ & K2 & _). rewrite key_fin in K2 by auto. apply Rabs_le_inv in D8.
  specialize (D7 F). rewrite (key_fin (d_fwd out)), D4 in D6 by auto. split; auto. unfold hi. split; [|lra].
  assert (B0 : 0 <= f2r (back64 l) * f2r v) by (apply Rmult_le_pos; lra).
  assert (N1 : Rabs (b64 (f2r (back64 l) * f2r v) - f2r (back64 l) * f2r v) <= u64 * (f2r (back64 l) * f2r v) + eta64) by (apply b64_near; rewrite Rabs_pos_eq; lra).
  apply Rabs_le_inv in N1. set (x := b64 (f2r (back64 l) * f2r v)) in *.
  assert (N2 : clamp x <= x). { unfold clamp. pose proof inf_pos. assert (0 <= x) by (apply (rnd_nonneg _ b64_rounding); auto). apply Rmax_lub; [lra|apply Rmin_r]. }
  fold hi. assert (N3 : f2r (back64 l) * f2r v <= f2r (back64 l) * hi) by (apply Rmult_le_compat_l; unfold hi; lra).
  assert (U : 0 <= u64) by (rewrite u64_val; lra). assert (N4 : u64 * (f2r (back64 l) * f2r v) <= u64 * (f2r (back64 l) * hi)) by (apply Rmult_le_compat_l; auto). lra.
Qed.
Print Assumptions C101_slow_when_turning.

(** Commands clearly within the limits are not altered. *)
Theorem C101_pass_through : forall l lin ang raw sq c s at2, List.Forall tame l -> sat64 l = Some (lin, ang) ->
  moderate lin ang (turn64 l) (back64 l) (side64 l) -> f2r (turn64 l) <= bpow radix2 400 -> fin (d_fwd raw) = true ->
  let V := turning_speed (f2r lin) (f2r (turn64 l)) (f2r (d_ang raw)) in
  let lo := V * (1 - bpow radix2 (-49)) - eta64 in
  between64 ang (d_ang raw) ang -> - (f2r (back64 l) * lo * (1 - u64) - eta64) <= f2r (d_fwd raw) <= lo ->
  between64 (fmul (side64 l) lin) (d_lat raw) (fmul (side64 l) lin) ->
  d_control ieee (ieee_maths sq c s at2) (settings ieee l) raw = raw.
Proof.
  intros l lin ang raw sq c s at2 T Q MD HT F V lo (H1 & H2) H3 (H4 & H5). assert (MD' := MD). destruct MD' as (A1 & A2 & A3 & A4 & A5 & A6).
  pose proof (proj1 (le64_number _ _ H2)) as Na. pose proof (proj1 (le64_number _ _ H5)) as Nl.
  apply le64_inv in H1. apply le64_inv in H2. apply le64_inv in H4. apply le64_inv in H5. rewrite key_opp in H1, H4.
  destruct (angular_ok l lin ang raw sq c s at2 T Q Na) as (_ & _ & B). destruct (lateral_ok l lin ang raw sq c s at2 T Q MD Nl) as (_ & _ & _ & _ & C).
  destruct (forward_ok l lin ang raw sq c s at2 T Q MD (fin_number _ F) Na) as (D1 & D2 & D3 & D4 & D5 & D6 & D7 & _ & D8).
  set (out := d_control ieee (ieee_maths sq c s at2) (settings ieee l) raw) in *. rewrite B in * by lra.
  specialize (D8 HT). fold V in D8. set (v := d_speed ieee _ _ (d_ang raw)) in *. destruct (factors_nonneg l T) as (_ & K2 & _). rewrite key_fin in K2 by auto. apply Rabs_le_inv in D8.
  assert (B0 : 0 <= f2r (back64 l) * f2r v) by (apply Rmult_le_pos; lra).
  assert (N1 : Rabs (b64 (f2r (back64 l) * f2r v) - f2r (back64 l) * f2r v) <= u64 * (f2r (back64 l) * f2r v) + eta64) by (apply b64_near; rewrite Rabs_pos_eq; lra).
  apply Rabs_le_inv in N1. set (x := b64 (f2r (back64 l) * f2r v)) in *.
  assert (N3 : f2r (back64 l) * lo <= f2r (back64 l) * f2r v) by (apply Rmult_le_compat_l; unfold lo; lra).
  assert (U : 0 <= u64 <= 1) by (rewrite u64_val; lra). assert (N4 : f2r (back64 l) * lo * (1 - u64) <= f2r (back64 l) * f2r v * (1 - u64)) by (apply Rmult_le_compat_r; lra).
  assert (N5 : - f2r (d_fwd raw) <= x) by lra.
  assert (E1 : d_fwd out = d_fwd raw).
  { apply D7. rewrite D4, key_fin by auto. split; [|unfold lo in *; lra].
    pose proof (f2r_lt (d_fwd raw)) as Lv. apply Rabs_def2 in Lv. assert (- f2r (d_fwd raw) <= clamp x); [|lra].
    unfold clamp. eapply Rle_trans; [|apply Rmax_r]. apply Rmin_glb; lra. }
  assert (E2 : d_lat out = d_lat raw) by (apply C; lra).
  destruct raw as [f w r]. cbn [d_fwd d_ang d_lat] in *. destruct out as [f' w' r']. cbn [d_fwd d_ang d_lat] in *. rewrite E1, E2, B by lra. reflexivity.
Qed.
Print Assumptions C101_pass_through.

(** The computation is the one of the exact model with doubles in place of real numbers. *)
Theorem C101_exact_model : forall sq c s at2 (S : field -> R) raw,
  d_control reals (MkMaths R Ropp sqrt sq c s at2) S (MkDC (c_fwd raw) (c_ang raw) (c_lat raw))
  = (let o := base_sat (MkBase (S q_satLin) (S q_satAng) (S q_turn) (S q_back) (S q_side)) raw in MkDC (c_fwd o) (c_ang o) (c_lat o)).
Proof. exact exact_control. Qed.
Print Assumptions C101_exact_model.

(** A NaN angular velocity switches the limit on the forward speed off: 1000 m/s where 1 m/s is allowed. *)
Theorem C101_nan_turn_refuted : exists l lin ang raw, List.Forall tame l /\ sat64 l = Some (lin, ang)
  /\ moderate lin ang (turn64 l) (back64 l) (side64 l) /\ number (d_fwd raw)
  /\ forall sq c s at2, let out := d_control ieee (ieee_maths sq c s at2) (settings ieee l) raw in lt64 lin (d_fwd out).
Proof.
  exists [sSat f1 f1], f1, f1, (MkDC (fmake 1000 0) fnan fzero). destruct f1_ok as (F1 & V1).
  split; [repeat constructor; intros x [<-|[<-|[]]]; apply num1|]. split; [seen; reflexivity|].
  split. { unfold moderate. change (turn64 [sSat f1 f1]) with fzero. change (back64 [sSat f1 f1]) with f1. change (side64 [sSat f1 f1]) with f1.
    rewrite V1. repeat split; auto. change 1 with (bpow radix2 0). apply bpow_le. lia. }
  split; [apply fin_number, fmake_exact; lia|]. intros sq c s at2 out. subst out. unfold lt64. vm_compute. reflexivity.
Qed.
Print Assumptions C101_nan_turn_refuted.

(** An infinite speed limit, meant as none, also cancels backward and sideways factors of 0. *)
Theorem C101_infinite_limit_refuted : exists l raw, List.Forall tame l /\ sat64 l = Some (finf, f1) /\ back64 l = fzero /\ side64 l = fzero /\ numbers raw
  /\ forall sq c s at2, let out := d_control ieee (ieee_maths sq c s at2) (settings ieee l) raw in
     lt64 (d_fwd out) fzero /\ lt64 fzero (d_lat out).
Proof.
  exists [sSat finf f1; sBack fzero; sSide fzero], (MkDC (fmake (-5) 0) fzero (fmake 7 0)).
  split. { repeat constructor; intros x Hx; simpl in Hx; repeat destruct Hx as [<-|Hx]; try contradiction; try discriminate; apply num1. }
  split; [seen; reflexivity|]. split; [seen; reflexivity|]. split; [seen; reflexivity|].
  split. { repeat split; try discriminate; apply fin_number, fmake_exact; lia. }
  intros sq c s at2 out. subst out. split; unfold lt64; vm_compute; reflexivity.
Qed.
Print Assumptions C101_infinite_limit_refuted.

(** An angular limit whose square overflows does the same without any NaN in the input. *)
Theorem C101_fast_turn_refuted : exists l lin ang raw, List.Forall tame l /\ sat64 l = Some (lin, ang) /\ fin ang = true /\ numbers raw
  /\ forall sq c s at2, let out := d_control ieee (ieee_maths sq c s at2) (settings ieee l) raw in lt64 lin (d_fwd out).
Proof.
  exists [sSat f1 (fmake 1 600)], f1, (fmake 1 600), (MkDC (fmake 1000 0) (fmake 1 600) fzero).
  assert (F : fin (fmake 1 600) = true) by (vm_compute; reflexivity).
  split. { repeat constructor; intros x Hx; simpl in Hx; repeat destruct Hx as [<-|Hx]; try contradiction; [apply num1|apply fin_number; exact F]. }
  split; [seen; reflexivity|]. split; [exact F|].
  split. { repeat split; discriminate. }
  intros sq c s at2 out. subst out. unfold lt64. vm_compute. reflexivity.
Qed.
Print Assumptions C101_fast_turn_refuted.

(** 1 m/s and 1 rad/s, half of it when turning at full rate and half of that backwards; an infinite command. *)
Example C101_example : let l := [sSat f1 f1; sTurn f1; sBack (fmake 1 (-1)); sSat (fmake (-3) 0) f1] in
  let raw := MkDC (B754_infinity true) finf fzero in
  List.Forall tame l /\ sat64 l = Some (f1, f1) /\ moderate f1 f1 (turn64 l) (back64 l) (side64 l) /\ f2r (turn64 l) <= bpow radix2 400 /\ numbers raw
  /\ forall sq c s at2, B2SF (d_fwd (d_control ieee (ieee_maths sq c s at2) (settings ieee l) raw)) = B2SF (fmake (-1) (-2)).
Proof.
  intros l raw. destruct f1_ok as (F1 & V1). assert (Fh : fin (fmake 1 (-1)) = true) by (vm_compute; reflexivity).
  split. { repeat constructor; intros x Hx; simpl in Hx; repeat destruct Hx as [<-|Hx]; try contradiction; try apply num1; apply fin_number; auto; apply fmake_exact; lia. }
  split. { seen. unfold arg64 at 1. replace (Bleb fzero (fmake (-3) 0)) with false by (vm_compute; reflexivity). reflexivity. }
  assert (P0 : 1 <= bpow radix2 400) by (change 1 with (bpow radix2 0); apply bpow_le; lia).
  assert (ET : turn64 l = f1) by (apply same_f64; vm_compute; reflexivity).
  split. { unfold moderate. rewrite V1. repeat split; auto; try (vm_compute; reflexivity). change 1 with (bpow radix2 0). apply bpow_le. lia. }
  split; [rewrite ET, V1; exact P0|]. split; [repeat split; discriminate|]. intros. vm_compute. reflexivity.
Qed.
