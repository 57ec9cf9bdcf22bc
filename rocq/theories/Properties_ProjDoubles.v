(** C111: a point projected into the free space in doubles. *)
From Coq Require Import String Reals ZArith List Bool Lia Lra.
From Flocq Require Import Core IEEE754.BinarySingleNaN.
From Verif Require Import Prelude Ellipse RoundedGen EvalTac Doubles DoublesSpec DoublesProofs CtrlDoubles NavDoublesSpec StepDoubles StepDoublesSpec StepDoublesProofs
  EllDoubles EllDoublesSpec EllDoublesProofs ProjDoubles ProjDoublesSpec ProjDoublesProofs ProjDoublesProofs2 ProjDoublesProofs3.
Import ListNotations.
Open Scope R_scope.

(** The instance with exact reals is the model of FreeSpaceEllipse used by C15 to C21, for any ellipse object; the object kept
    here is that of EllDoubles.v with the image matrix beside it, for any arithmetic and history. *)
Theorem C111_exact_model : forall e p1 p2,
  v_intersections reals exact_maths (exact_space e) (exact_pair p1) (exact_pair p2) =
    match ell_intersections e p1 p2 with Some (i, j) => Some (exact_pair i, exact_pair j) | None => None end
  /\ v_closest reals exact_maths (exact_space e) (exact_pair p1) (exact_pair p2) = option_map exact_pair (ell_closest e p1 p2)
  /\ v_project reals exact_maths (exact_space e) (exact_pair p1) (exact_pair p2) = exact_pair (ell_project e p1 p2).
Proof. intros e p1 p2. split; [apply inters_exact|split; [apply closest_exact|apply project_exact]]. Qed.
Print Assumptions C111_exact_model.
Theorem C111_object : forall N (A : arith N) (M : maths N) l, option_map v_inv (v_run A M l) = z_run A M l.
Proof.
  intros N A M l. unfold v_run, z_run. change (@None (dell N)) with (option_map (@v_inv N) None). generalize (@None (free N)) as e. induction l as [|k l IH]; intros e; [reflexivity|]. cbn [fold_left]. rewrite IH. f_equal. clear.
  destruct k as [a b th cx cy|]; [|reflexivity]. unfold v_call, z_call. destruct (_ || _); reflexivity.
Qed.
Print Assumptions C111_object.

(** C111: without an ellipse, and for a point that isPointInside finds inside, the answer is the point itself.  For any other
    point it is the image of a point of the ellipse space: an intersection of the line with the border, or, if the line has
    none, the point over its norm. *)
Theorem C111_cases : forall N (A : arith N) (M : maths N) l test proj,
  let e := v_run A M l in
  (k_inside A M (z_run A M l) test = true -> v_project A M e test proj = test)
  /\ (k_inside A M (z_run A M l) test = false -> exists z w, e = Some z /\ v_project A M e test proj = v_out A z w /\
       match v_circle A M (v_gen A z proj) (v_gen A z test) with Some (i, j) => w = i \/ w = j | None => w = v_unit A M (v_gen A z test) end).
Proof.
  intros N A M l test proj e. rewrite <- C111_object. fold e. destruct e as [z|]; cbn [option_map k_inside v_project]; [|split; [auto|discriminate]].
  change (a_le A (x_sqrt M _) (c1 A)) with (a_le A (v_norm A M (v_gen A z test)) (c1 A)). split; intros ->; [reflexivity|]. exists z.
  unfold v_closest, v_intersections. destruct (v_circle A M (v_gen A z proj) (v_gen A z test)) as [(i & j)|]; [|eexists; repeat split; reflexivity].
  destruct (a_lt A _ _); eexists; repeat split; auto.
Qed.
Print Assumptions C111_cases.

(** C111: in doubles that point of the ellipse space is on the border of the unit circle up to rounding, whatever the library
    functions are: to 2^-50 for a line along an axis, to 2^-48 for a point over its norm, and for a line [y = sigma x + delta]
    with coefficients of at most 2^20 to 2^-46 (1 + delta^2 + |sigma|). *)
Theorem C111_border : forall sq c s at2 p1 p2, let M := ieee_maths sq c s at2 in
  match v_circle ieee M p1 p2 with
  | None => fin (v_norm ieee M p2) = true -> Bleb (v_norm ieee M p2) f1 = false -> on_border (bpow radix2 (-48)) (v_unit ieee M p2)
  | Some (i, j) =>
      (along_axis p1 p2 -> on_border (bpow radix2 (-50)) i /\ on_border (bpow radix2 (-50)) j)
      /\ (~ along_axis p1 p2 ->
          let sigma := fdiv (fopp (v_alpha ieee p1 p2)) (v_beta ieee p1 p2) in let delta := fdiv (fopp (v_gamma ieee p1 p2)) (v_beta ieee p1 p2) in
          fin sigma = true -> fin delta = true -> Rabs (f2r sigma) <= bpow radix2 20 -> Rabs (f2r delta) <= bpow radix2 20 ->
          let t := bpow radix2 (-46) * (1 + f2r delta * f2r delta + Rabs (f2r sigma)) in on_border t i /\ on_border t j)
  end.
Proof.
  intros sq c s at2 p1 p2 M. destruct (v_circle ieee M p1 p2) as [(i & j)|] eqn:H; [|apply unit_border]. unfold v_circle in H. cbv zeta in H. unfold along_axis. cbn [a_lt a_abs ieee] in H.
  destruct (Bltb (Babs (v_alpha ieee p1 p2)) (v_tiny ieee)), (Bltb (Babs (v_beta ieee p1 p2)) (v_tiny ieee)); cbn [andb] in H; try discriminate H.
  - split; [|intros N; exfalso; apply N; left; reflexivity]. intros _. destruct (v_axis ieee M _) as [(y & x)|] eqn:V in H; [|discriminate H]. destruct (axis_border _ _ _ _ _ _ _ V) as (_ & (Fy & Fx & B) & _). cbn [fst snd] in B, Fy, Fx.
    assert (Hi : i = (x, y)) by congruence. assert (Hj : j = (fopp x, y)) by (cbn [x_opp M ieee_maths] in H; congruence). rewrite Hi, Hj. assert (Vo : f2r (fopp x) = - f2r x) by (unfold f2r, fopp; apply B2R_Bopp).
    split; (split; [|split; [exact Fy|]]); cbn [fst snd]; rewrite ?fopp_parts, ?Vo; auto.
    + rewrite (Rplus_comm (f2r x * f2r x)). exact B.
    + replace (- f2r x * - f2r x + f2r y * f2r y) with (f2r y * f2r y + f2r x * f2r x) by ring. exact B.
  - split; [|intros N; exfalso; apply N; right; reflexivity]. intros _. destruct (v_axis ieee M _) as [(x & y)|] eqn:V in H; [|discriminate H]. destruct (axis_border _ _ _ _ _ _ _ V) as (_ & (Fx & Fy & B) & _). cbn [fst snd] in B, Fy, Fx.
    assert (Hi : i = (x, y)) by congruence. assert (Hj : j = (x, fopp y)) by (cbn [x_opp M ieee_maths] in H; congruence). rewrite Hi, Hj. assert (Vo : f2r (fopp y) = - f2r y) by (unfold f2r, fopp; apply B2R_Bopp).
    split; (split; [exact Fx|split]); cbn [fst snd]; rewrite ?fopp_parts, ?Vo; auto.
    replace (f2r x * f2r x + - f2r y * - f2r y) with (f2r x * f2r x + f2r y * f2r y) by ring. exact B.
  - split; [intros [N|N]; discriminate N|]. intros _ Fs Fd Bs Bd. exact (slanted_border _ _ Fs Fd Bs Bd _ _ _ _ _ _ H).
Qed.
Print Assumptions C111_border.

(** C111: back in the plane. After any history of calls a point found outside is answered with a finite point whose value for the
    exact ellipse (C107) is one, up to the error of the border above and the rounding of the way back. *)
Lemma v_in_force : forall M l, v_run ieee M l = match in_force l with Some (ZSet a b th cx cy) => Some (MkFree (z_image ieee M a b th) (z_inverse ieee M (z_image ieee M a b th) (cx, cy))) | _ => None end.
Proof.
  intros M l. unfold v_run. assert (G : forall e, fold_left (fun e k => fst (v_call ieee M e k)) l e = match in_force l with Some (ZSet a b th cx cy) => Some (MkFree (z_image ieee M a b th) (z_inverse ieee M (z_image ieee M a b th) (cx, cy))) | Some ZClear => None | None => e end).
  { induction l as [|k l IH]; intros e; [reflexivity|]. cbn [fold_left in_force]. rewrite IH. destruct (in_force l) as [x|]; [reflexivity|]. destruct k as [a b th cx cy|]; [|reflexivity]. cbn [v_call a_lt ieee]. destruct (Bltb a _ || Bltb b _); reflexivity. }
  rewrite G. destruct (in_force l) as [[]|]; reflexivity.
Qed.
Theorem C111_lands_partial : forall sq c s at2 l a b th cx cy test proj t, let M := ieee_maths sq c s at2 in
  close_trig c s -> in_force l = Some (ZSet a b th cx cy) -> axis64 a -> axis64 b -> fin th = true -> coord64 cx -> coord64 cy ->
  k_inside ieee M (z_run ieee M l) test = false ->
  let z := MkFree (z_image ieee M a b th) (z_inverse ieee M (z_image ieee M a b th) (cx, cy)) in
  let p1 := v_gen ieee z proj in let p2 := v_gen ieee z test in
  let sigma := fdiv (fopp (v_alpha ieee p1 p2)) (v_beta ieee p1 p2) in let delta := fdiv (fopp (v_gamma ieee p1 p2)) (v_beta ieee p1 p2) in
  (v_circle ieee M p1 p2 = None /\ fin (v_norm ieee M p2) = true /\ t = bpow radix2 (-48))
  \/ (v_circle ieee M p1 p2 <> None /\ along_axis p1 p2 /\ t = bpow radix2 (-50))
  \/ (v_circle ieee M p1 p2 <> None /\ ~ along_axis p1 p2 /\ fin sigma = true /\ fin delta = true /\ Rabs (f2r sigma) <= bpow radix2 20 /\ Rabs (f2r delta) <= bpow radix2 20
      /\ t = bpow radix2 (-46) * (1 + f2r delta * f2r delta + Rabs (f2r sigma))) ->
  let r := v_project ieee M (v_run ieee M l) test proj in
  fin (fst r) = true /\ fin (snd r) = true /\ Rabs (level64 a b th (cx, cy) r - 1) <= t + back64 a b (cx, cy).
Proof.
  intros sq c s at2 l a b th cx cy test proj t M trig IF Ha Hb Ft Hx Hy Out z p1 p2 sigma delta Cs r.
  assert (Zr : v_run ieee M l = Some z) by (rewrite v_in_force, IF; reflexivity).
  destruct (proj2 (C111_cases f64 ieee M l test proj) Out) as (z' & w & Z & R & W). rewrite Zr in Z. assert (EZ : z' = z) by congruence. subst z'. fold r in R. fold p1 p2 in W.
  assert (NL : Bleb (v_norm ieee M p2) f1 = false).
  { rewrite <- C111_object, Zr in Out. cbn [option_map k_inside] in Out. rewrite c1_one in Out. exact Out. }
  pose proof (C111_border sq c s at2 p1 p2) as B. cbv zeta in B. fold M in B.
  assert (Lt : on_border t w /\ t <= 1).
  { assert (P : forall k, (k <= 0)%Z -> bpow radix2 k <= 1) by (intros k K; change 1 with (bpow radix2 0); apply bpow_le; exact K).
    destruct Cs as [(C1 & C2 & ->)|[(C1 & C2 & ->)|(C1 & C2 & C3 & C4 & C5 & C6 & ->)]].
    - rewrite C1 in W, B. subst w. split; [apply B; auto|apply P; lia].
    - destruct (v_circle ieee M p1 p2) as [(i & j)|]; [|contradiction C1; reflexivity]. destruct B as (B & _). destruct (B C2) as (Bi & Bj). split; [destruct W as [-> | ->]; assumption|apply P; lia].
    - destruct (v_circle ieee M p1 p2) as [(i & j)|]; [|contradiction C1; reflexivity]. destruct B as (_ & B). destruct (B C2 C3 C4 C5 C6) as (Bi & Bj). split; [destruct W as [-> | ->]; assumption|]. fold sigma delta.
      assert (D2 : f2r delta * f2r delta <= bpow radix2 20 * bpow radix2 20) by (rewrite <- (Rabs_pos_eq (f2r delta * f2r delta)), Rabs_mult by apply Rle_0_sqr; apply Rmult_le_compat; auto; apply Rabs_pos). rewrite <- bpow_plus in D2. change (bpow radix2 (20 + 20)) with (bpow radix2 40) in D2.
      pose proof (bpow_le radix2 20 40 ltac:(lia)). pose proof (bpow_le radix2 0 40 ltac:(lia)) as Q. change (bpow radix2 0) with 1 in Q. apply Rle_trans with (bpow radix2 (-46) * (4 * bpow radix2 40)); [apply Rmult_le_compat_l; [apply bpow_ge_0|lra]|].
      change 4 with (bpow radix2 2). rewrite <- !bpow_plus. apply P. lia. }
  rewrite R. apply (out_near sq c s at2 trig a b th cx cy Ha Hb Ft Hx Hy z t w); try apply Lt; reflexivity.
Qed.
Print Assumptions C111_lands_partial.

(** The bound on the coefficients matters.  The free space is the unit circle, the robot is inside it and the person less than
    five metres ahead, off the direction of the y axis by 2^-49.  The answer of projectPointInsideEllipse is more than 30000 km
    away, with any library that computes the cosine and sine of zero exactly. *)
Definition circle : list (zcall f64) := [ZSet f1 f1 fzero fzero fzero].
Definition near_y : (f64 * f64) * (f64 * f64) := ((fmake 15 (-4), fmake (-1) (-2)), (fadd (fmake 15 (-4)) (fmake 1 (-49)), fmake 4 0)).
Theorem C111_stays_refuted : exists l robot person, forall sq c s at2, c fzero = f1 -> s fzero = fzero -> let M := ieee_maths sq c s at2 in
  k_inside ieee M (z_run ieee M l) robot = true /\ k_inside ieee M (z_run ieee M l) person = false
  /\ let r := v_project ieee M (v_run ieee M l) person robot in
     k_inside ieee M (z_run ieee M l) r = false /\ fin (snd r) = true /\ Bltb (fmake 30000000 0) (snd r) = true.
Proof.
  exists circle, (fst near_y), (snd near_y). intros sq c s at2 C0 S0 M. unfold v_run, z_run, circle. cbn [fold_left]. unfold v_call, z_call, z_image. cbn [x_cos x_sin x_opp M ieee_maths]. rewrite C0, S0. vm_compute. auto 10.
Qed.
Print Assumptions C111_stays_refuted.
(** Off by 2^-40 the answer is where the robot already is, though the border is 0.86 m ahead. *)
Theorem C111_reach_refuted : exists l robot person, forall sq c s at2, c fzero = f1 -> s fzero = fzero -> let M := ieee_maths sq c s at2 in
  k_inside ieee M (z_run ieee M l) robot = true /\ k_inside ieee M (z_run ieee M l) person = false
  /\ let r := v_project ieee M (v_run ieee M l) person robot in Beqb (fst r) (fst robot) = true /\ Beqb (snd r) (snd robot) = true.
Proof.
  exists circle, (fmake 1 (-1), fzero), (fadd (fmake 1 (-1)) (fmake 1 (-40)), fmake 3 0). intros sq c s at2 C0 S0 M. unfold v_run, z_run, circle. cbn [fold_left]. unfold v_call, z_call, z_image. cbn [x_cos x_sin x_opp M ieee_maths]. rewrite C0, S0. vm_compute. auto 10.
Qed.
Print Assumptions C111_reach_refuted.

(** A robot at (1/2, 0) in the unit circle and a person at (1/2, 3), at (2, 3/2) and, seen from outside, at (3, 3): one line
    along an axis, one with slope one, one without intersections. *)
Example C111_example : forall sq c s at2, c fzero = f1 -> s fzero = fzero -> let M := ieee_maths sq c s at2 in
  let e := v_run ieee M circle in let half := fmake 1 (-1) in
  (Beqb (fst (v_project ieee M e (half, fmake 3 0) (half, fzero))) half = true
   /\ Bltb (fmake 866 (-10)) (snd (v_project ieee M e (half, fmake 3 0) (half, fzero))) = true /\ along_axis (half, fzero) (half, fmake 3 0))
  /\ (let p := (half, fzero) in let q := (fmake 2 0, fmake 3 (-1)) in
      Bltb (fmake 7 (-3)) (fst (v_project ieee M e q p)) = true /\ ~ along_axis p q
      /\ Beqb (fdiv (fopp (v_alpha ieee p q)) (v_beta ieee p q)) f1 = true /\ Beqb (fdiv (fopp (v_gamma ieee p q)) (v_beta ieee p q)) (fmake (-1) (-1)) = true)
  /\ v_circle ieee M (fmake 3 0, fzero) (fmake 3 0, fmake 3 0) = None.
Proof.
  intros sq c s at2 C0 S0 M e half. unfold e, v_run, circle. cbn [fold_left]. unfold v_call, z_image. cbn [x_cos x_sin x_opp M ieee_maths]. rewrite C0, S0. split; [|split].
  - split; [vm_compute; reflexivity|split; [vm_compute; reflexivity|]]. right. vm_compute. reflexivity.
  - split; [vm_compute; reflexivity|split; [|split; vm_compute; reflexivity]]. intros [N|N]; vm_compute in N; discriminate N.
  - vm_compute. reflexivity.
Qed.
