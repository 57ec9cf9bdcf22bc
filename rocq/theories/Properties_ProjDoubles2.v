(** C111: where a person followed by the robot is projected in doubles, in the directions that are safe. *)
From Coq Require Import String Reals ZArith List Bool Lia Lra.
From Flocq Require Import Core IEEE754.BinarySingleNaN.
From Verif Require Import Prelude Ellipse RoundedGen EvalTac Doubles DoublesSpec DoublesProofs CtrlDoubles NavDoublesSpec StepDoubles StepDoublesSpec StepDoublesProofs
  EllDoubles EllDoublesSpec EllDoublesProofs ProjDoubles ProjDoublesSpec ProjDoublesProofs ProjDoublesProofs2 ProjDoublesProofs3 Properties_ProjDoubles ProjDoublesSpec2 ProjDoublesProofs4.
Import ListNotations.
Open Scope R_scope.

(** The test of isPointInside is the norm of the generators. *)
Lemma inside_gen : forall sq c s at2 (z : free f64) p, let M := ieee_maths sq c s at2 in k_inside ieee M (Some (v_inv z)) p = Bleb (v_norm ieee M (v_gen ieee z p)) f1.
Proof. intros sq c s at2 z p M. unfold k_inside. rewrite c1_one. reflexivity. Qed.

(** C111: after any history of calls, if isPointInside finds the robot inside and the person outside, and in the ellipse space the
    person is at most 2^k times farther from the robot in y than in x, the answer is a finite point on the border of the exact
    ellipse (C107), to 2^(2k-41) and the rounding of the way back.  The distance between the two does not matter, nor does the
    branch taken; [k] is at most 18. *)
Theorem C111_slope : forall k sq c s at2 l a b th cx cy robot person, let M := ieee_maths sq c s at2 in (0 <= k <= 18)%Z ->
  close_trig c s -> in_force l = Some (ZSet a b th cx cy) -> axis64 a -> axis64 b -> fin th = true -> coord64 cx -> coord64 cy ->
  coord64 (fst person) -> coord64 (snd person) ->
  k_inside ieee M (z_run ieee M l) robot = true -> k_inside ieee M (z_run ieee M l) person = false ->
  let z := MkFree (z_image ieee M a b th) (z_inverse ieee M (z_image ieee M a b th) (cx, cy)) in
  let p1 := v_gen ieee z robot in let p2 := v_gen ieee z person in
  Rabs (f2r (v_alpha ieee p1 p2)) <= bpow radix2 k * Rabs (f2r (v_beta ieee p1 p2)) ->
  let r := v_project ieee M (v_run ieee M l) person robot in
  fin (fst r) = true /\ fin (snd r) = true /\ Rabs (level64 a b th (cx, cy) r - 1) <= bpow radix2 (2 * k - 41) + back64 a b (cx, cy).
Proof.
  intros k sq c s at2 l a b th cx cy robot person M Hk trig IF Ha Hb Ft Hx Hy Px Py In Out z p1 p2 Fl r.
  assert (Zr : v_run ieee M l = Some z) by (rewrite v_in_force, IF; reflexivity).
  assert (NI : Bleb (v_norm ieee M p1) f1 = true) by (unfold p1, M; rewrite <- inside_gen; fold M; rewrite <- C111_object, Zr in In; exact In).
  destruct (inside_small sq c s at2 p1 NI) as (F1 & F2 & B1 & B2). destruct (gen_small sq c s at2 a b th cx cy person trig Ha Hb Ft Hx Hy Px Py) as ((F3 & B3) & (F4 & B4)). fold M z p2 in F3, B3, F4, B4.
  assert (FL : flat64 k p1 p2) by (split; [split; auto|split; [split; auto|split; [split; auto|split; [split; auto|exact Fl]]]]).
  assert (Up : forall t, t <= bpow radix2 (2 * k - 41) -> fin (fst r) = true /\ fin (snd r) = true /\ Rabs (level64 a b th (cx, cy) r - 1) <= t + back64 a b (cx, cy) ->
     fin (fst r) = true /\ fin (snd r) = true /\ Rabs (level64 a b th (cx, cy) r - 1) <= bpow radix2 (2 * k - 41) + back64 a b (cx, cy)) by (intros t T (X & Y & V); split; [exact X|split; [exact Y|lra]]).
  assert (L : forall t, _ -> _) by exact (fun t => C111_lands_partial sq c s at2 l a b th cx cy person robot t trig IF Ha Hb Ft Hx Hy Out). cbv zeta in L. fold M in L. fold z in L. fold p1 p2 in L. fold r in L.
  assert (SM : forall j, (j <= -41)%Z -> bpow radix2 j <= bpow radix2 (2 * k - 41)) by (intros j J; apply bpow_le; lia).
  assert (DA : along_axis p1 p2 \/ ~ along_axis p1 p2) by (unfold along_axis; destruct (Bltb (Babs (v_alpha ieee p1 p2)) (v_tiny ieee)), (Bltb (Babs (v_beta ieee p1 p2)) (v_tiny ieee)); auto; right; intros [N|N]; discriminate N).
  destruct (v_circle ieee M p1 p2) as [ij|] eqn:V.
  - destruct DA as [D|D].
    + apply (Up (bpow radix2 (-50))); [apply SM; lia|]. apply L. right. left. split; [discriminate|split; [exact D|reflexivity]].
    + destruct (flat_line k p1 p2 Hk FL D) as (G1 & G2 & G3 & G4). set (sigma := fdiv (fopp (v_alpha ieee p1 p2)) (v_beta ieee p1 p2)) in *. set (delta := fdiv (fopp (v_gamma ieee p1 p2)) (v_beta ieee p1 p2)) in *.
      pose proof (pw k (proj1 Hk)) as K1. assert (B20 : 4 * bpow radix2 k <= bpow radix2 20) by (change 4 with (bpow radix2 2); rewrite <- bpow_plus; apply bpow_le; lia).
      apply (Up (bpow radix2 (-46) * (1 + f2r delta * f2r delta + Rabs (f2r sigma)))).
      * assert (Q : f2r delta * f2r delta <= 4 * bpow radix2 k * (4 * bpow radix2 k)) by (rewrite <- (Rabs_pos_eq (f2r delta * f2r delta)), Rabs_mult by apply Rle_0_sqr; apply Rmult_le_compat; auto; apply Rabs_pos).
        assert (KK : bpow radix2 k <= bpow radix2 k * bpow radix2 k) by (rewrite <- (Rmult_1_l (bpow radix2 k)) at 1; apply Rmult_le_compat_r; lra).
        apply Rle_trans with (bpow radix2 (-46) * (32 * (bpow radix2 k * bpow radix2 k))); [apply Rmult_le_compat_l; [apply bpow_ge_0|lra]|]. change 32 with (bpow radix2 5). rewrite <- !bpow_plus. apply bpow_le. lia.
      * apply L. right. right. split; [discriminate|]. split; [exact D|split; [exact G1|split; [exact G2|split; [lra|split; [lra|reflexivity]]]]].
  - apply (Up (bpow radix2 (-48))); [apply SM; lia|]. apply L. left. split; [reflexivity|split; [|reflexivity]]. apply norm_fin; auto.
Qed.
Print Assumptions C111_slope.

(** C111: for a person not farther in y than in x, as the doubles compare, the border is met to 2^-41. *)
Theorem C111_flat : forall sq c s at2 l a b th cx cy robot person, let M := ieee_maths sq c s at2 in
  close_trig c s -> in_force l = Some (ZSet a b th cx cy) -> axis64 a -> axis64 b -> fin th = true -> coord64 cx -> coord64 cy ->
  coord64 (fst person) -> coord64 (snd person) ->
  k_inside ieee M (z_run ieee M l) robot = true -> k_inside ieee M (z_run ieee M l) person = false ->
  let z := MkFree (z_image ieee M a b th) (z_inverse ieee M (z_image ieee M a b th) (cx, cy)) in
  let p1 := v_gen ieee z robot in let p2 := v_gen ieee z person in
  Bleb (Babs (v_alpha ieee p1 p2)) (Babs (v_beta ieee p1 p2)) = true -> fin (v_beta ieee p1 p2) = true ->
  let r := v_project ieee M (v_run ieee M l) person robot in
  fin (fst r) = true /\ fin (snd r) = true /\ Rabs (level64 a b th (cx, cy) r - 1) <= bpow radix2 (-41) + back64 a b (cx, cy).
Proof.
  intros sq c s at2 l a b th cx cy robot person M trig IF Ha Hb Ft Hx Hy Px Py In Out z p1 p2 Fl Fb r.
  apply (C111_slope 0 sq c s at2 l a b th cx cy robot person ltac:(lia) trig IF Ha Hb Ft Hx Hy Px Py In Out). change (bpow radix2 0) with 1. rewrite Rmult_1_l. fold M z p1 p2.
  destruct (abs_ok _ Fb) as (Fb' & Vb). assert (Fa : fin (v_alpha ieee p1 p2) = true).
  { revert Fl Fb'. destruct (v_alpha ieee p1 p2), (v_beta ieee p1 p2); cbn; intros; auto; discriminate. }
  destruct (abs_ok _ Fa) as (Fa' & Va). rewrite ble_ok, Va, Vb in Fl by auto. rcasesh Fl; [exact Hc|discriminate].
Qed.
Print Assumptions C111_flat.

(** A robot at (1/2, 0) in the unit circle, and a person at (2, 3/2): a line along the diagonal, which the theorem covers. *)
Example C111_flat_example : forall sq c s at2, c fzero = f1 -> s fzero = fzero -> let M := ieee_maths sq c s at2 in
  let robot := (fmake 1 (-1), fzero) in let person := (fmake 2 0, fmake 3 (-1)) in
  in_force circle = Some (ZSet f1 f1 fzero fzero fzero) /\ axis64 f1 /\ coord64 fzero /\ coord64 (fst person) /\ coord64 (snd person)
  /\ k_inside ieee M (z_run ieee M circle) robot = true /\ k_inside ieee M (z_run ieee M circle) person = false
  /\ (let z := MkFree (z_image ieee M f1 f1 fzero) (z_inverse ieee M (z_image ieee M f1 f1 fzero) (fzero, fzero)) in
      Bleb (Babs (v_alpha ieee (v_gen ieee z robot) (v_gen ieee z person))) (Babs (v_beta ieee (v_gen ieee z robot) (v_gen ieee z person))) = true)
  /\ (let near_y1 := (fst (fst near_y), snd (fst near_y)) in Bleb (Babs (v_alpha ieee near_y1 (snd near_y))) (Babs (v_beta ieee near_y1 (snd near_y))) = false).
Proof.
  intros sq c s at2 C0 S0 M robot person. unfold z_run, circle. cbn [fold_left]. unfold z_call, z_image. cbn [x_cos x_sin x_opp M ieee_maths]. rewrite C0, S0.
  assert (P : forall k, (0 <= k)%Z -> 1 <= bpow radix2 k) by (intros; apply pw; auto). destruct f1_ok as (F1 & V1). destruct (fmake_exact 2 ltac:(lia)) as (F2 & V2).
  assert (P2 : 4 <= bpow radix2 200) by (change 4 with (bpow radix2 2); apply bpow_le; lia).
  assert (A1 : axis64 f1) by (split; [exact F1|split; [vm_compute; reflexivity|rewrite V1; apply P; lia]]).
  assert (Z0 : coord64 fzero) by (split; [reflexivity|change (f2r fzero) with 0; rewrite Rabs_R0; apply bpow_ge_0]).
  assert (X : coord64 (fmake 2 0)) by (split; [exact F2|rewrite V2, Rabs_pos_eq; lra]).
  assert (Y : coord64 (fmake 3 (-1))).
  { assert (Fy : fin (fmake 3 (-1)) = true) by (vm_compute; reflexivity). split; [exact Fy|]. assert (U : Bleb (fmake 3 (-1)) (fmake 2 0) = true) by (vm_compute; reflexivity). assert (W : Bleb f1 (fmake 3 (-1)) = true) by (vm_compute; reflexivity). rewrite ble_ok, ?V1, ?V2 in U, W by auto. rcasesh U; [|discriminate]. rcasesh W; [|discriminate]. rewrite Rabs_pos_eq; lra. }
  assert (T : Bltb f1 (a_q ieee 1 10000000000) = false) by (vm_compute; reflexivity).
  split; [cbn [in_force]; rewrite T; reflexivity|]. split; [exact A1|split; [exact Z0|split; [exact X|split; [exact Y|]]]].
  split; [vm_compute; reflexivity|split; [vm_compute; reflexivity|split; vm_compute; reflexivity]].
Qed.
