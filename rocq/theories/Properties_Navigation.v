(** Properties C22-C25 and C63, and the navigation part of C07 and C10. *)
From Coq Require Import Reals Lra Lia List Bool PeanoNat.
From Verif Require Import Prelude EvalTac UnicycleFoot Ellipse Controllers ControlSpec ControlProofs EllipseProofs
  Navigation NavigationSpec NavigationProofs.
Import ListNotations.
Open Scope R_scope.

(** A path of three poses, saturations and a first feedback. *)
Definition demo_path : list ustate := [MkU (V2 0 0) 0; MkU (V2 1 0) 0; MkU (V2 2 0) 0].
Definition demo_ops : list navop := [NBase (BSide (1 / 2)); NBase (BSat 1 1); NPath demo_path; NFeedback 0 (V2 0 0) 0].

Lemma demo_run : exists n, nav_run nav_new demo_ops = Ok (n, [ODone true; ODone true; ODone true; ODone true])
  /\ n_max n = Some (1, 1 / 2, 1) /\ n_path n = demo_path /\ n_fresh n = Some true /\ n_idx n = 1%nat
  /\ n_time n = 0 /\ n_until n = 0 /\ n_state n = Some (MkU (V2 0 0) 0) /\ n_dt n = 1 / 100.
Proof.
  assert (E : exists m, nav_run nav_new [NBase (BSide (1 / 2)); NBase (BSat 1 1)] = Ok (m, [ODone true; ODone true])
    /\ n_max m = Some (1, 1 / 2, 1) /\ n_time m = 0 /\ n_until m = 0 /\ n_dt m = 1 / 100).
  { cbn -[tol Rdiv]. unfold base_setSide. rewrite rltb_f by lra. cbn -[tol Rdiv].
    unfold nav_setSat, base_setSat. cbn -[tol Rdiv]. rewrite !rltb_f by lra. cbn -[tol Rdiv].
    unfold nav_setMax, tol. rewrite !Rabs_right by lra. rewrite !rltb_f by lra. cbn -[Rdiv].
    eexists. split; [reflexivity|]. cbn -[Rdiv]. repeat split; try reflexivity. do 2 f_equal; [f_equal|]; lra. }
  destruct E as (m & E & M1 & M2 & M3 & M4).
  change demo_ops with ([NBase (BSide (1 / 2)); NBase (BSat 1 1)] ++ [NPath demo_path; NFeedback 0 (V2 0 0) 0]).
  rewrite run_app, E. cbn -[tol Rdiv]. eexists. split; [reflexivity|]. cbn -[tol Rdiv].
  repeat split; auto. do 2 f_equal. unfold wrap_once. pose proof PI_RGT_0. rewrite rgtb_f, rltb_f by lra. reflexivity.
Qed.

(** * C22 *)
(** The pose in use belongs to the last usable path; it is the second one right after the path was accepted. *)
Theorem C22_target_in_path : forall ops n outs p, nav_run nav_new ops = Ok (n, outs) -> current_path ops = Some p ->
  n_path n = p /\ (1 <= n_idx n < length p)%nat /\ exists g, nth_error p (n_idx n) = Some g.
Proof.
  intros ops n outs p H C. apply run_inv in H as [_ _ P _]. rewrite C in P. destruct P as (P1 & P2 & _).
  split; auto. split; auto. destruct P2 as [_ P2]. apply nth_error_Some in P2. destruct (nth_error p (n_idx n)); eauto; congruence.
Qed.
Print Assumptions C22_target_in_path.

Theorem C22_starts_at_second : forall ops x y r n outs, nav_run nav_new (ops ++ [NPath (x :: y :: r)]) = Ok (n, outs) ->
  nth_error (n_path n) (n_idx n) = Some y
  /\ forall n' c, n_until n <= n_time n -> nav_query n = Ok (n', c) -> nth_error (n_path n') (n_idx n') = Some y.
Proof.
  intros ops x y r n outs H. apply run_snoc in H as (n1 & o1 & a & _ & E & _). cbn in E. injection E as <- <-. cbn.
  split; [reflexivity|]. intros n' c Ht Q. apply query_shapes in Q.
  inversion Q as [T|T G|T F Hp|eta T F|eta T F]; subst; try (cbn in *; lra); try (cbn in *; discriminate).
  - destruct G as (G & _). discriminate.
  - apply plan_frame in Hp as (_ & _ & _ & p4 & p5 & _). rewrite p4, p5. reflexivity.
Qed.
Print Assumptions C22_starts_at_second.

(** With a path, limits and a feedback accepted, no later sequence of calls has undefined behaviour. *)
Theorem C22_never_outside : forall pre n outs p t q a post, nav_run nav_new pre = Ok (n, outs) ->
  current_path pre = Some p -> limits_of pre <> None -> In (NFeedback t q a) pre ->
  exists n' outs', nav_run nav_new (pre ++ post) = Ok (n', outs ++ outs').
Proof.
  intros pre n outs p t q a post H C L F. pose proof (run_inv _ _ _ H) as [_ M P _]. rewrite C in P. destruct P as (P1 & P2 & P3).
  assert (R0 : nav_ready n).
  { split; [congruence| |destruct P3 as [[P3 _]|P3]; auto|rewrite P1; lia].
    eapply state_set; [exact H|]. left; exact F. }
  destruct (run_ready post n R0) as (n' & o' & E & _). exists n', o'. rewrite run_app, H, E. reflexivity.
Qed.
Print Assumptions C22_never_outside.

(** A query before any usable path is undefined, whatever else was called before. *)
Theorem C22_query_without_path_refuted : exists ops n outs, nav_run nav_new ops = Ok (n, outs)
  /\ current_path ops = None /\ limits_of ops <> None /\ (exists t p a, In (NFeedback t p a) ops)
  /\ nav_run nav_new (ops ++ [NQuery]) = UB.
Proof.
  set (ops := [NBase (BSat 1 1); NFeedback 0 (V2 0 0) 0]).
  assert (E : exists n, nav_run nav_new ops = Ok (n, [ODone true; ODone true]) /\ n_time n = 0 /\ n_until n = 0 /\ n_fresh n = None).
  { subst ops. cbn -[tol Rdiv]. unfold nav_setSat, base_setSat. cbn -[tol Rdiv]. rewrite !rltb_f by lra. cbn -[tol Rdiv].
    unfold nav_setMax, tol. rewrite !Rabs_right by lra. rewrite !rltb_f by lra. cbn -[Rdiv]. eexists. split; [reflexivity|]. auto. }
  destruct E as (n & E & T & U & F). exists ops, n, [ODone true; ODone true]. split; [exact E|]. split; [reflexivity|]. split; [|split].
  - apply run_inv in E as [_ M _ _]. unfold limits_of. subst ops. cbn. unfold set_side, set_turn. cbn.
    repeat (destruct (Rle_dec _ _); try lra); discriminate.
  - subst ops. do 3 eexists. right. left. reflexivity.
  - rewrite run_app, E. cbn. unfold nav_query. rewrite T, U, rltb_f by lra. unfold nav_compute. rewrite F. reflexivity.
Qed.
Print Assumptions C22_query_without_path_refuted.

(** Before a usable path every unpaused query is undefined. *)
Theorem C22_no_path_undefined : forall ops n outs, nav_run nav_new ops = Ok (n, outs) -> current_path ops = None ->
  n_until n <= n_time n -> nav_query n = UB.
Proof.
  intros ops n outs H C T. apply run_inv in H as [_ _ P _]. rewrite C in P. destruct P as (_ & _ & P).
  unfold nav_query. rewrite rltb_f by lra. unfold nav_compute. rewrite P. reflexivity.
Qed.
Print Assumptions C22_no_path_undefined.

Example C22_example : exists n outs n' c, nav_run nav_new demo_ops = Ok (n, outs) /\ current_path demo_ops = Some demo_path
  /\ limits_of demo_ops <> None /\ nav_query n = Ok (n', c) /\ n_idx n' = 1%nat.
Proof.
  destruct demo_run as (n & E & M & P & F & I & T & U & St & _).
  assert (Q : exists n' c, nav_query n = Ok (n', c) /\ n_idx n' = 1%nat).
  { unfold nav_query. rewrite T, U, rltb_f by lra. unfold nav_compute. rewrite F. unfold nav_plan. cbn. rewrite P, I, M, St. cbn [nth_error demo_path].
    destruct (towards _ _ _ _ _) as [c eta]. cbn. eexists _, _. split; [reflexivity|]. exact I. }
  destruct Q as (n' & c & Q & I'). exists n. eexists. exists n', c. split; [exact E|]. split; [reflexivity|]. split; [|auto].
  apply run_inv in E as [_ M' _ _]. congruence.
Qed.

(** * C23 *)
(** Each call other than an accepted path moves the index by at most one, and only queries move it. *)
Theorem C23_index_monotone : forall ops n n' outs, nav_run n ops = Ok (n', outs) -> forallb (fun o => negb (is_path o)) ops = true ->
  n_path n' = n_path n /\ (n_idx n <= n_idx n' <= n_idx n + queries ops)%nat.
Proof.
  induction ops as [|o ops IH]; intros n n' outs H N; cbn in H, N.
  - injection H as <- <-. split; [reflexivity|cbn; lia].
  - apply andb_prop in N as [N1 N2]. destruct (nav_call n o) as [[n1 a]| |] eqn:E; cbn in H; try discriminate.
    destruct (nav_run n1 ops) as [[n2 o2]| |] eqn:E2; cbn in H; try discriminate. injection H as <- <-.
    apply IH in E2 as [P2 I2]; auto. unfold queries in *. cbn [filter].
    assert (K : n_path n1 = n_path n /\ (n_idx n <= n_idx n1 <= n_idx n + (if is_query o then 1 else 0))%nat).
    { destruct o as [t p ang| |q|b|d|t|c]; cbn in E.
      - injection E as <- <-; cbn; split; [reflexivity|lia].
      - destruct (nav_query n) as [[m c]| |] eqn:Eq; cbn in E; try discriminate. injection E as <- <-. apply query_shapes in Eq. cbn [is_query].
        destruct Eq as [_ ->|_ _ ->|_ Hf Hp|eta _ Hf He Hlt Hne Hp|eta _ Hf He Hge Hp].
        + split; [reflexivity|lia].
        + cbn. split; [reflexivity|lia].
        + apply plan_frame in Hp as (_ & _ & _ & p4 & p5 & _). cbn in *. rewrite p4, p5. split; [reflexivity|lia].
        + apply plan_frame in Hp as (_ & _ & _ & p4 & p5 & _). cbn in *. rewrite p4, p5. split; [reflexivity|lia].
        + apply plan_frame in Hp as (_ & _ & _ & p4 & p5 & _). cbn in *. rewrite p4, p5. split; [reflexivity|lia].
      - discriminate.
      - injection E as <- <-. destruct b as [lin ang|g|g|g]; cbn.
        + unfold nav_setSat. destruct (base_setSat lin ang (n_base n)) as [bb [|]]; [|cbn; split; [reflexivity|lia]].
          destruct (base_limits bb) as [[? ?] ?]. unfold nav_setMax. destruct (_ || _); cbn; (split; [reflexivity|lia]).
        + destruct (base_setTurn _ _); cbn; split; [reflexivity|lia].
        + destruct (base_setBack _ _); cbn; split; [reflexivity|lia].
        + destruct (base_setSide _ _); cbn; split; [reflexivity|lia].
      - injection E as <- <-. unfold nav_setStep. destruct (Reqb _ _); cbn; split; try reflexivity; lia.
      - injection E as <- <-; cbn; split; [reflexivity|lia].
      - injection E as <- <-; cbn; split; [reflexivity|lia]. }
    destruct K as [K1 K2]. split; [congruence|]. destruct (is_query o); cbn [length]; lia.
Qed.
Print Assumptions C23_index_monotone.

(** Once at the goal the command stays zero until a path (or a different time step) is given. *)
Theorem C23_stays_stopped : forall ops n, at_goal n -> forallb (fun o => negb (is_path o || is_step o)) ops = true ->
  exists n' outs, nav_run n ops = Ok (n', outs) /\ at_goal n' /\ Forall zero outs.
Proof.
  induction ops as [|o ops IH]; intros n G N; cbn in N |- *.
  - exists n, []. auto.
  - apply andb_prop in N as [N1 N2].
    assert (K : exists n1 a, nav_call n o = Ok (n1, a) /\ at_goal n1 /\ zero a).
    { pose proof G as (G1 & (eta & G2 & G3) & G4). destruct o as [t p ang| |q|b|d|t|c]; cbn.
      - do 2 eexists; split; [reflexivity|]. split; [exact G|exact I].
      - unfold nav_query. destruct (Rltb (n_time n) (n_until n)); cbn.
        + do 2 eexists; split; [reflexivity|]. split; [exact G|reflexivity].
        + unfold nav_compute. rewrite G1, G2, rltb_t by exact G3. rewrite (proj2 (Nat.eqb_eq _ _) G4). cbn.
          do 2 eexists; split; [reflexivity|]. split; [exact G|reflexivity].
      - discriminate.
      - do 2 eexists; split; [reflexivity|]. split; [|exact I]. destruct b as [lin ang|g|g|g]; cbn.
        + unfold nav_setSat. destruct (base_setSat lin ang (n_base n)) as [bb [|]]; [|exact G].
          destruct (base_limits bb) as [[? ?] ?]. unfold nav_setMax. destruct (Rltb _ _ || _ || _); exact G.
        + destruct (base_setTurn _ _); exact G.
        + destruct (base_setBack _ _); exact G.
        + destruct (base_setSide _ _); exact G.
      - discriminate.
      - do 2 eexists; split; [reflexivity|]. split; [exact G|exact I].
      - do 2 eexists; split; [reflexivity|]. split; [exact G|exact I]. }
    destruct K as (n1 & a & -> & K1 & K2). destruct (IH n1 K1 N2) as (n2 & o2 & E & E1 & E2). cbn. rewrite E. cbn.
    exists n2, (a :: o2). auto.
Qed.
Print Assumptions C23_stays_stopped.

(** The next query moves on exactly when the pose was expected within one time step. *)
Theorem C23_moves_on_iff_reached : forall ops n outs n' c g s v l a, nav_run nav_new ops = Ok (n, outs) ->
  n_until n <= n_time n -> nav_query n = Ok (n', c) -> ~ at_goal n -> nth_error (n_path n') (n_idx n') = Some g ->
  n_state n' = Some s -> n_max n' = Some (v, l, a) ->
  forall d m' c', nav_query (nav_feedback (n_time n) (u_pos d) (u_angle d) n') = Ok (m', c') ->
  (n_idx m' = S (n_idx n') <-> snd (towards v l a s g) < n_dt n /\ S (n_idx n') <> length (n_path n')).
Proof.
  intros ops n outs n' c g s v l a H T Q G Hg Hs Hm d m' c' Q2. apply query_shapes in Q. apply query_shapes in Q2.
  assert (F : n_fresh n' = Some false /\ n_eta n' = Some (snd (towards v l a s g)) /\ n_dt n' = n_dt n /\ n_until n' = n_until n).
  { inversion Q as [T1|T1 G1|T1 F1 Hp|eta T1 F1 E1 L1 N1 Hp|eta T1 F1 E1 L1 Hp]; subst; try lra; try tauto;
    apply plan_frame in Hp as (_ & p2 & p3 & p4 & p5 & p6 & p7 & p8 & _ & g' & v' & l' & a' & s' & q1 & q2 & q3 & _ & q5);
    rewrite p4, p5, q1 in Hg; rewrite p7, q3 in Hs; rewrite p2, q2 in Hm; injection Hg as <-; injection Hs as <-; injection Hm as <- <- <-;
    rewrite p3, p6, p8, q5; cbn; auto. }
  destruct F as (F1 & F2 & F3 & F4).
  inversion Q2 as [T1|T1 G1|T1 F5 Hp|eta T1 F5 E1 L1 N1 Hp|eta T1 F5 E1 L1 Hp]; subst; try (cbn in *; lra); try (cbn in *; congruence).
  - destruct G1 as (_ & _ & G3). cbn in G3 |- *. split; [lia|]. intros [_ K]. congruence.
  - apply plan_frame in Hp as (_ & _ & _ & _ & p5 & _). cbn in p5. rewrite p5. cbn in N1, L1, E1 |- *. split; auto. intros _. split; [|exact N1].
    rewrite F2 in E1. injection E1 as <-. lra.
  - apply plan_frame in Hp as (_ & _ & _ & _ & p5 & _). cbn in p5. rewrite p5. cbn in L1, E1 |- *. split; [lia|]. intros [K _].
    rewrite F2 in E1. injection E1 as <-. lra.
Qed.
Print Assumptions C23_moves_on_iff_reached.

(** A path of two poses whose second pose is where the robot stands: the first query sees it reached, later ones stop. *)
Example C23_example : exists n n' c, nav_run nav_new [NBase (BSat 1 1); NPath [MkU (V2 1 0) 0; MkU (V2 0 0) 0]; NFeedback 0 (V2 0 0) 0] = Ok (n, [ODone true; ODone true; ODone true])
  /\ nav_query n = Ok (n', c) /\ at_goal n'.
Proof.
  assert (E : exists n, nav_run nav_new [NBase (BSat 1 1)] = Ok (n, [ODone true]) /\ n_max n = Some (1, 1, 1)
    /\ n_time n = 0 /\ n_until n = 0 /\ n_dt n = 1 / 100).
  { cbn -[tol Rdiv]. unfold nav_setSat, base_setSat. cbn -[tol Rdiv]. rewrite !rltb_f by lra. cbn -[tol Rdiv].
    unfold nav_setMax, tol. rewrite !Rabs_right by lra. rewrite !rltb_f by lra. cbn -[Rdiv]. eexists. split; [reflexivity|].
    cbn -[Rdiv]. repeat split. do 2 f_equal; [f_equal|]; lra. }
  destruct E as (m & E & M & T & U & D). 
  change [NBase (BSat 1 1); NPath [MkU (V2 1 0) 0; MkU (V2 0 0) 0]; NFeedback 0 (V2 0 0) 0]
    with ([NBase (BSat 1 1)] ++ [NPath [MkU (V2 1 0) 0; MkU (V2 0 0) 0]; NFeedback 0 (V2 0 0) 0]).
  rewrite run_app, E. cbn -[nav_feedback]. eexists _, _, _. split; [reflexivity|]. cbn -[Rdiv towards].
  unfold nav_query. cbn -[Rdiv towards]. rewrite U, rltb_f by lra. unfold nav_compute. cbn -[Rdiv towards]. unfold nav_plan. cbn -[Rdiv towards].
  rewrite M. match goal with |- context [towards ?a ?b ?c ?d ?e] => set (tw := towards a b c d e) end. rewrite (surjective_pairing tw). cbn -[tw]. split; [reflexivity|].
  split; [reflexivity|]. split; [|reflexivity]. exists (snd tw). split; [reflexivity|]. cbn -[tw Rdiv]. rewrite D.
  unfold tw, towards, distance. cbv zeta. pose proof PI_RGT_0. cbn [u_pos vx vy u_angle].
  replace ((0 - 0) ^ 2 + (0 - 0) ^ 2) with 0 by ring. rewrite sqrt_0.
  unfold wrap_once. rewrite !(rgtb_f 0 PI), !(rltb_f 0 (- PI)) by lra. replace (0 - 0) with 0 by ring.
  rewrite !(rgtb_f 0 PI), !(rltb_f 0 (- PI)) by lra. rewrite Rabs_R0. replace (0 / 1) with 0 by field.
  match goal with |- context [0 / ?x] => replace (0 / x) with 0 by (unfold Rdiv; ring) end.
  rewrite (rgtb_f 0 0) by lra. cbn [snd]. lra.
Qed.

(** * C24 *)
Lemma clip_abs : forall x, Rabs (clip x) <= Rabs x.
Proof. intros x. unfold clip. destruct (Rltb _ _); [rewrite Rabs_R0; apply Rabs_pos|lra]. Qed.
Lemma clip_close : forall x, Rabs (clip x - x) <= tol.
Proof.
  intros x. pose proof tol_pos. unfold clip. destruct (Rltb _ _) eqn:E.
  - apply Rltb_true in E. replace (0 - x) with (- x) by ring. rewrite Rabs_Ropp. lra.
  - replace (x - x) with 0 by ring. rewrite Rabs_R0. lra.
Qed.
Lemma clip_sq : forall x, clip x ^ 2 <= x ^ 2.
Proof. intros x. rewrite <- (pow2_abs (clip x)), <- (pow2_abs x). apply pow_incr. split; [apply Rabs_pos|apply clip_abs]. Qed.

Lemma towards_bounds : forall v l a s g, 0 < v -> 0 < l -> 0 < a ->
  let c := fst (towards v l a s g) in Rabs (c_ang c) = a /\ c_fwd c ^ 2 + c_lat c ^ 2 <= linear_speed v l (slope s g) ^ 2.
Proof.
  intros v l a s g Hv Hl Ha c. subst c. unfold towards. cbv zeta. set (sp := linear_speed v l (slope s g)).
  assert (A : Rabs ((if Rgeb (wrap_once (u_angle g - u_angle s)) 0 then 1 else -1) * a) = a).
  { destruct (Rgeb _ _); rewrite Rabs_mult, (Rabs_right a) by lra; unfold Rabs; destruct (Rcase_abs _); lra. }
  destruct (Rgtb _ _); cbn [fst c_ang c_fwd c_lat]; split; auto.
  - pose proof (clip_sq 0). assert (0 <= sp ^ 2) by apply pow2_ge_0. lra.
  - set (f := _ + _ * _). pose proof (clip_sq f). set (h := - _ * _ + _). pose proof (clip_sq h).
    apply Rle_trans with (f ^ 2 + h ^ 2); [lra|]. right. unfold f, h.
    pose proof (cs2 (u_angle s)) as K1. pose proof (cs2 (slope s g)) as K2.
    replace ((sp * cos (slope s g) * cos (u_angle s) + sp * sin (slope s g) * sin (u_angle s)) ^ 2
      + (- (sp * cos (slope s g)) * sin (u_angle s) + sp * sin (slope s g) * cos (u_angle s)) ^ 2)
      with (sp ^ 2 * (cos (slope s g) * cos (slope s g) + sin (slope s g) * sin (slope s g)) * (cos (u_angle s) * cos (u_angle s) + sin (u_angle s) * sin (u_angle s))) by ring.
    rewrite K1, K2. ring.
Qed.

(** Where the command of a query comes from. *)
Lemma query_target : forall ops n outs n' c v l a, nav_run nav_new ops = Ok (n, outs) -> nav_query n = Ok (n', c) ->
  limits_of ops = Some (v, l, a) ->
  (tol <= v /\ tol <= l /\ tol <= a) /\
  (c = zero_cmd \/ exists s g, n_state n = Some s /\ nth_error (n_path n) (n_idx n') = Some g /\ c = fst (towards v l a s g)).
Proof.
  intros ops n outs n' c v l a H Q L. apply run_inv in H as [_ M _ P]. rewrite L in M. rewrite M in P. split; [exact P|].
  apply query_shapes in Q. inversion Q as [T1|T1 G1|T1 F1 Hp|eta T1 F1 E1 L1 N1 Hp|eta T1 F1 E1 L1 Hp]; subst; auto; right;
    apply plan_frame in Hp as (_ & _ & _ & _ & p5 & _ & _ & _ & _ & g' & v' & l' & a' & s' & q1 & q2 & q3 & q4 & _); cbn in *;
    rewrite q2 in M; injection M as -> -> ->; exists s', g'; rewrite p5; auto.
Qed.

Theorem C24_own_limits_partial : forall ops n outs n' c v l a, nav_run nav_new ops = Ok (n, outs) -> nav_query n = Ok (n', c) ->
  limits_of ops = Some (v, l, a) ->
  Rabs (c_ang c) <= a /\ sqrt (c_fwd c ^ 2 + c_lat c ^ 2) <= sqrt (v ^ 2 + l ^ 2)
  /\ sqrt (v ^ 2 + l ^ 2) <= sqrt 2 * Rmax v l.
Proof.
  intros ops n outs n' c v l a H Q L. destruct (query_target _ _ _ _ _ _ _ _ H Q L) as ((V & LL & A) & D). pose proof tol_pos.
  assert (Z : sqrt (v ^ 2 + l ^ 2) <= sqrt 2 * Rmax v l).
  { pose proof (Rmax_l v l). pose proof (Rmax_r v l). rewrite <- (sqrt_pow2 (Rmax v l)) by lra. rewrite <- sqrt_mult_alt by lra.
    apply sqrt_le_1_alt. assert (v ^ 2 <= Rmax v l ^ 2) by (apply pow_incr; lra). assert (l ^ 2 <= Rmax v l ^ 2) by (apply pow_incr; lra). lra. }
  destruct D as [-> | (s & g & _ & _ & ->)].
  - cbn. rewrite Rabs_R0. split; [lra|]. split; auto. replace (0 * (0 * 1) + 0 * (0 * 1)) with 0 by ring. rewrite sqrt_0. apply sqrt_pos.
  - destruct (towards_bounds v l a s g) as [B1 B2]; try lra. cbv zeta in *. split; [lra|]. split; auto.
    apply Rle_trans with (sqrt (linear_speed v l (slope s g) ^ 2)); [apply sqrt_le_1_alt; exact B2|].
    assert (Sp : 0 < linear_speed v l (slope s g)) by (apply speed_pos; lra).
    rewrite sqrt_pow2 by lra. apply speed_bound; lra.
Qed.
Print Assumptions C24_own_limits_partial.

Lemma atan2_0_1 : atan2 0 1 = 0.
Proof. unfold atan2. destruct (Rlt_dec 0 1); [|lra]. unfold Rdiv. rewrite Rmult_0_l. apply atan_0. Qed.

(** The limits are applied along the world axes: a robot facing +y asked to go along +x is commanded a lateral velocity of 1
    although the lateral limit is 1/2. *)
Theorem C24_body_frame_refuted : exists ops n outs n' c v l a, nav_run nav_new ops = Ok (n, outs) /\ nav_query n = Ok (n', c)
  /\ limits_of ops = Some (v, l, a) /\ Rabs (c_lat c) > l.
Proof.
  destruct demo_run as (m & E & M & P & F & I & T & U & _ & D).
  set (ops := demo_ops ++ [NFeedback 0 (V2 0 0) (PI / 2); NPath [MkU (V2 0 0) 0; MkU (V2 1 0) (PI / 2)]]).
  exists ops. set (n := fst (nav_setPath [MkU (V2 0 0) 0; MkU (V2 1 0) (PI / 2)] (nav_feedback 0 (V2 0 0) (PI / 2) m))).
  assert (R0 : exists outs, nav_run nav_new ops = Ok (n, outs)). { unfold ops. rewrite run_app, E. cbn. eauto. }
  destruct R0 as [outs R0]. exists n, outs.
  assert (St : n_state n = Some (MkU (V2 0 0) (PI / 2))).
  { cbn -[Rdiv]. unfold wrap_once. pose proof PI_RGT_0. rewrite rgtb_f, rltb_f by lra. reflexivity. }
  assert (Q : nav_query n = Ok (nav_with_plan (fst (towards 1 (1 / 2) 1 (MkU (V2 0 0) (PI / 2)) (MkU (V2 1 0) (PI / 2))))
     (snd (towards 1 (1 / 2) 1 (MkU (V2 0 0) (PI / 2)) (MkU (V2 1 0) (PI / 2)))) (nav_with_fresh (Some false) n),
     fst (towards 1 (1 / 2) 1 (MkU (V2 0 0) (PI / 2)) (MkU (V2 1 0) (PI / 2))))).
  { unfold nav_query. assert (n_time n = 0) as -> by reflexivity. assert (n_until n = 0) as -> by exact U. rewrite rltb_f by lra.
    unfold nav_compute. assert (n_fresh n = Some true) as -> by reflexivity. unfold nav_plan.
    assert (n_state (nav_with_fresh (Some false) n) = Some (MkU (V2 0 0) (PI / 2))) as -> by exact St.
    assert (n_max (nav_with_fresh (Some false) n) = Some (1, 1 / 2, 1)) as -> by exact M.
    assert (nth_error (n_path (nav_with_fresh (Some false) n)) (n_idx (nav_with_fresh (Some false) n)) = Some (MkU (V2 1 0) (PI / 2))) as -> by reflexivity.
    destruct (towards _ _ _ _ _) as [c eta]. reflexivity. }
  eexists _, _, 1, (1 / 2), 1. split; [exact R0|]. split; [exact Q|]. split.
  - apply run_inv in R0 as [_ M0 _ _]. rewrite <- M0. exact M.
  - unfold towards, slope, distance. cbn [u_pos u_angle vx vy]. replace (0 - 0) with 0 by ring. replace (1 - 0) with 1 by ring.
    rewrite atan2_0_1. unfold linear_speed. rewrite cos_0, sin_0, Rabs_R1, Rabs_R0. rewrite (rltb_f 1 tol) by (unfold tol; lra).
    rewrite (rltb_t 0 tol) by apply tol_pos. cbv zeta. replace (PI / 2 - PI / 2) with 0 by ring. unfold wrap_once. pose proof PI_RGT_0.
    rewrite (rgtb_f 0 PI), (rltb_f 0 (- PI)), Rabs_R0 by lra. unfold Rdiv at 1 3. rewrite !Rmult_0_l.
    replace (1 ^ 2 + 0 ^ 2) with 1 by ring. rewrite sqrt_1. rewrite (rgtb_f 0 (1 / 1)) by lra. rewrite cos_PI2, sin_PI2. cbn [fst c_lat].
    replace (- (1 * 1) * 1 + 1 * 0 * 0) with (-1) by ring. unfold clip. assert (A1 : Rabs (-1) = 1) by (rewrite Rabs_left; lra).
    rewrite !A1, rltb_f by (unfold tol; lra). rewrite A1. lra.
Qed.
Print Assumptions C24_body_frame_refuted.

Example C24_example : limits_of demo_ops = Some (1, 1 / 2, 1) /\ exists n outs n' c, nav_run nav_new demo_ops = Ok (n, outs) /\ nav_query n = Ok (n', c).
Proof.
  destruct demo_run as (n & E & M & _). split.
  - apply run_inv in E as [_ M' _ _]. congruence.
  - destruct C22_example as (n1 & o1 & n2 & c & A & _ & _ & B & _). eauto 6.
Qed.

(** * C25 *)
Theorem C25_heading_partial : forall a, Rabs a <= 3 * PI -> forall t p n,
  exists s, n_state (nav_feedback t p a n) = Some s /\ u_pos s = p /\ - PI <= u_angle s <= PI /\ same_heading (u_angle s) a.
Proof.
  intros a H t p n. eexists. split; [reflexivity|]. cbn. split; [reflexivity|]. split; [apply wrap_range; exact H|apply wrap_congruent].
Qed.
Print Assumptions C25_heading_partial.
(** For any heading the stored one is the same direction. *)
Theorem C25_same_direction : forall a t p n, exists s, n_state (nav_feedback t p a n) = Some s /\ same_heading (u_angle s) a.
Proof. intros. eexists. split; [reflexivity|]. apply wrap_congruent. Qed.
Print Assumptions C25_same_direction.
(** Only one turn is removed: two full turns leave a heading outside the range. *)
Theorem C25_two_turns_refuted : exists a t p n s, n_state (nav_feedback t p a n) = Some s /\ ~ (- PI <= u_angle s <= PI).
Proof.
  exists (4 * PI), 0, (V2 0 0), nav_new. eexists. split; [reflexivity|]. cbn. pose proof PI_RGT_0.
  unfold wrap_once. rewrite rgtb_t by lra. lra.
Qed.
Print Assumptions C25_two_turns_refuted.
Example C25_example : Rabs (3 * PI / 2) <= 3 * PI /\ wrap_once (3 * PI / 2) = - (PI / 2).
Proof.
  pose proof PI_RGT_0. split; [rewrite Rabs_right; lra|]. unfold wrap_once. rewrite rgtb_t by lra. lra.
Qed.

(** * C63 *)
(** While moving, the world velocity is, up to the clipping tolerance, directed to the target pose and within the limits
    along the world axes; otherwise the robot turns on the spot because turning takes longer. *)
Theorem C63_straight_to_target : forall ops n outs n' c v l a, nav_run nav_new ops = Ok (n, outs) -> nav_query n = Ok (n', c) ->
  limits_of ops = Some (v, l, a) -> c <> zero_cmd ->
  exists s g, n_state n = Some s /\ nth_error (n_path n) (n_idx n') = Some g /\
  (c_fwd c = 0 /\ c_lat c = 0
   \/ exists dir speed, vnorm dir = 1 /\ u_pos g = vadd (u_pos s) (vscale (distance s g) dir)
      /\ 0 < speed <= sqrt (v ^ 2 + l ^ 2) /\ Rabs (speed * vx dir) <= Rmax v (tol * l) /\ Rabs (speed * vy dir) <= Rmax l (tol * v)
      /\ vnorm (vsub (world_velocity (u_angle s) c) (vscale speed dir)) <= 2 * tol).
Proof.
  intros ops n outs n' c v l a H Q L NZ. destruct (query_target _ _ _ _ _ _ _ _ H Q L) as ((V & LL & A) & D). pose proof tol_pos.
  destruct D as [-> | (s & g & S1 & G1 & ->)]; [congruence|]. exists s, g. split; auto. split; auto. clear NZ Q.
  set (sl := slope s g). set (sp := linear_speed v l sl).
  unfold towards. cbv zeta. fold sl. fold sp. destruct (Rgtb _ _).
  - left. cbn. unfold clip. rewrite Rabs_R0, rltb_t by lra. auto.
  - right. exists (V2 (cos sl) (sin sl)), sp. split; [|split; [|split; [|split; [|split]]]].
    + unfold vnorm, vnorm2. cbn. rewrite cs2. apply sqrt_1.
    + assert (Sq : distance s g * distance s g = (vx (u_pos g) - vx (u_pos s)) * (vx (u_pos g) - vx (u_pos s)) + (vy (u_pos g) - vy (u_pos s)) * (vy (u_pos g) - vy (u_pos s))).
      { unfold distance. rewrite sqrt_sqrt; [ring|]. apply Rplus_le_le_0_compat; apply pow2_ge_0. }
      assert (Dp : 0 <= distance s g) by apply sqrt_pos. destruct Dp as [Dp|Dp].
      * destruct (atan2_polar _ _ _ Dp Sq) as [E1 E2]. fold sl in E1, E2. unfold sl, slope. rewrite E1, E2. apply vec2_ext; cbn; field; lra.
      * rewrite <- Dp in Sq |- *. assert (vx (u_pos g) - vx (u_pos s) = 0 /\ vy (u_pos g) - vy (u_pos s) = 0) by (apply Rplus_sqr_eq_0; unfold Rsqr; lra).
        apply vec2_ext; cbn; lra.
    + split; [apply speed_pos; lra|apply speed_bound; lra].
    + cbn. apply speed_components; lra.
    + cbn. apply speed_components; lra.
    + cbn [fst c_fwd c_lat]. set (f := _ + _ * _). set (h := - _ * _ + _).
      pose proof (clip_close f) as Cf. pose proof (clip_close h) as Ch.
      assert (E : vsub (world_velocity (u_angle s) (MkCmd (clip f) ((if Rgeb (wrap_once (u_angle g - u_angle s)) 0 then 1 else -1) * a) (clip h))) (vscale sp (V2 (cos sl) (sin sl)))
        = rot (u_angle s) (V2 (clip f - f) (clip h - h))).
      { pose proof (cs2 (u_angle s)) as K.
        assert (E1 : cos (u_angle s) * f - sin (u_angle s) * h = sp * cos sl).
        { unfold f, h. transitivity (sp * cos sl * (cos (u_angle s) * cos (u_angle s) + sin (u_angle s) * sin (u_angle s))); [ring|rewrite K; ring]. }
        assert (E2 : sin (u_angle s) * f + cos (u_angle s) * h = sp * sin sl).
        { unfold f, h. transitivity (sp * sin sl * (cos (u_angle s) * cos (u_angle s) + sin (u_angle s) * sin (u_angle s))); [ring|rewrite K; ring]. }
        clearbody f h. apply vec2_ext; cbn; rewrite <- ?E1, <- ?E2; ring. }
      rewrite E. unfold vnorm. assert (E2 : vnorm2 (rot (u_angle s) (V2 (clip f - f) (clip h - h))) = (clip f - f) ^ 2 + (clip h - h) ^ 2).
      { unfold vnorm2. cbn. pose proof (cs2 (u_angle s)) as K. 
        transitivity ((cos (u_angle s) * cos (u_angle s) + sin (u_angle s) * sin (u_angle s)) * ((clip f - f) ^ 2 + (clip h - h) ^ 2)); [ring|rewrite K; ring]. }
      rewrite E2. rewrite <- (sqrt_pow2 (2 * tol)) by lra. apply sqrt_le_1_alt.
      rewrite <- (pow2_abs (clip f - f)), <- (pow2_abs (clip h - h)).
      assert (Rabs (clip f - f) ^ 2 <= tol ^ 2) by (apply pow_incr; split; [apply Rabs_pos|lra]).
      assert (Rabs (clip h - h) ^ 2 <= tol ^ 2) by (apply pow_incr; split; [apply Rabs_pos|lra]). nra.
Qed.
Print Assumptions C63_straight_to_target.

Lemma same_heading_unique : forall x d, same_heading x d -> - PI <= x <= PI -> - PI < d < PI -> x = d.
Proof.
  intros x d [k E] Hx Hd. pose proof PI_RGT_0 as HP. subst x. assert (K : k = 0%Z).
  { destruct (Z_lt_le_dec k 0) as [C|C].
    - assert (C' : (k <= -1)%Z) by lia. apply IZR_le in C'. exfalso. assert (IZR k * PI <= -1 * PI) by (apply Rmult_le_compat_r; lra). lra.
    - destruct (Z_lt_le_dec 0 k) as [C2|C2]; [|lia]. assert (C' : (1 <= k)%Z) by lia. apply IZR_le in C'. exfalso.
      assert (1 * PI <= IZR k * PI) by (apply Rmult_le_compat_r; lra). lra. }
  subst k. ring.
Qed.

(** The turning direction is that of the shorter rotation to the heading of the target. *)
Theorem C63_turns_the_short_way_partial : forall v l a s g d, 0 < a -> Rabs (u_angle g - u_angle s) <= 3 * PI ->
  same_heading (u_angle g) (u_angle s + d) -> - PI < d < PI ->
  (0 < d -> c_ang (fst (towards v l a s g)) = a) /\ (d < 0 -> c_ang (fst (towards v l a s g)) = - a).
Proof.
  intros v l a s g d Ha Hr Hs Hd.
  assert (E : wrap_once (u_angle g - u_angle s) = d).
  { apply same_heading_unique; auto; [|apply wrap_range; exact Hr].
    destruct (wrap_congruent (u_angle g - u_angle s)) as [k1 E1]. destruct Hs as [k2 E2]. exists (k1 + k2)%Z. rewrite E1, E2, plus_IZR. ring. }
  assert (C : c_ang (fst (towards v l a s g)) = (if Rgeb d 0 then 1 else -1) * a).
  { unfold towards. cbv zeta. rewrite E. destruct (Rgtb _ _); reflexivity. }
  rewrite C. split; intros H; unfold Rgeb; [rewrite rleb_t by lra; ring|rewrite rleb_f by lra; ring].
Qed.
Print Assumptions C63_turns_the_short_way_partial.

(** A robot whose heading already is that of the target is still commanded to turn at full rate. *)
Theorem C63_turns_when_aligned_refuted : exists ops n outs n' c v l a s g, nav_run nav_new ops = Ok (n, outs) /\ nav_query n = Ok (n', c)
  /\ limits_of ops = Some (v, l, a) /\ n_state n = Some s /\ nth_error (n_path n) (n_idx n') = Some g /\ u_angle s = u_angle g
  /\ c_ang c = a /\ 0 < a.
Proof.
  destruct demo_run as (m & E & M & P & F & I & T & U & St & D). exists demo_ops, m. eexists.
  assert (Q : exists n' c, nav_query m = Ok (n', c) /\ n_idx n' = 1%nat /\ c = fst (towards 1 (1 / 2) 1 (MkU (V2 0 0) 0) (MkU (V2 1 0) 0))).
  { unfold nav_query. rewrite T, U, rltb_f by lra. unfold nav_compute. rewrite F. unfold nav_plan. cbn. rewrite P, I, M, St. cbn [nth_error demo_path].
    destruct (towards _ _ _ _ _) as [c eta]. cbn. eexists _, _. split; [reflexivity|]. auto. }
  destruct Q as (n' & c & Q & I' & ->). exists n'. eexists. exists 1, (1 / 2), 1, (MkU (V2 0 0) 0), (MkU (V2 1 0) 0).
  split; [exact E|]. split; [exact Q|]. split; [apply run_inv in E as [_ M' _ _]; congruence|]. split; [exact St|].
  split; [rewrite P, I'; reflexivity|]. split; [reflexivity|]. split; [|lra].
  unfold towards. cbv zeta. cbn [u_angle]. replace (0 - 0) with 0 by ring. unfold wrap_once. pose proof PI_RGT_0.
  rewrite (rgtb_f 0 PI), (rltb_f 0 (- PI)) by lra. unfold Rgeb. rewrite rleb_t by lra. destruct (Rgtb _ _); cbn; ring.
Qed.
Print Assumptions C63_turns_when_aligned_refuted.

Example C63_example : exists ops n outs n' c, nav_run nav_new ops = Ok (n, outs) /\ nav_query n = Ok (n', c) /\ c <> zero_cmd /\ limits_of ops <> None.
Proof.
  destruct C24_body_frame_refuted as (ops & n & outs & n' & c & v & l & a & A & B & C & D). exists ops, n, outs, n', c.
  split; auto. split; auto. split; [|congruence]. intros ->. cbn in D. rewrite Rabs_R0 in D.
  destruct (query_target _ _ _ _ _ _ _ _ A B C) as ((_ & L1 & _) & _). pose proof tol_pos. lra.
Qed.

(** * C10, navigation: the command is zero while inactive *)
Theorem C10_navigation_pause : forall n t p a, t < n_until n -> nav_ctl n t (MkU p a) = Ok (nav_feedback t p a n, zero_cmd).
Proof. intros n t p a H. unfold nav_ctl, nav_query. cbn. rewrite rltb_t by exact H. reflexivity. Qed.
Print Assumptions C10_navigation_pause.
Example C10_navigation_example : nav_ctl (nav_setUntil 2 nav_new) 1 (MkU (V2 0 0) 0) = Ok (nav_feedback 1 (V2 0 0) 0 (nav_setUntil 2 nav_new), zero_cmd).
Proof. apply C10_navigation_pause. cbn. rewrite Rabs_right; lra. Qed.

(** * C07, navigation *)
(** Refused paths, time steps and gains change nothing. *)
Theorem C07_navigation_partial : forall n o n', nav_call n o = Ok (n', ODone false) ->
  (forall lin ang, o <> NBase (BSat lin ang)) -> n' = n.
Proof.
  intros n o n' H N. destruct o as [t p ang| |q|b|d|t|c]; cbn in H; try discriminate.
  - destruct (nav_query n) as [[? ?]| |]; discriminate.
  - unfold nav_setPath in H. destruct (Nat.ltb _ _); injection H as <-; [reflexivity|discriminate].
  - assert (Z : nav_with_base (n_base n) n = n) by (destruct n; reflexivity). destruct b as [lin ang|g|g|g]; [exfalso; eapply N; reflexivity| | |]; cbn in H.
    + unfold base_setTurn in H. destruct (Rltb _ _); injection H as <-; [exact Z|discriminate].
    + unfold base_setBack in H. destruct (Rltb _ _); injection H as <-; [exact Z|discriminate].
    + unfold base_setSide in H. destruct (Rltb _ _); injection H as <-; [exact Z|discriminate].
  - unfold nav_setStep in H. destruct (Reqb _ _); injection H as <-; [reflexivity|discriminate].
Qed.
Print Assumptions C07_navigation_partial.
(** Saturations refused because a limit is too small have already replaced those of the base controller. *)
Theorem C07_navigation_saturations_refuted : exists n lin ang n', nav_call n (NBase (BSat lin ang)) = Ok (n', ODone false) /\ n_base n' <> n_base n.
Proof.
  exists nav_new, 1, 0. cbn -[tol]. unfold nav_setSat, base_setSat. cbn -[tol]. rewrite !rltb_f by lra. cbn -[tol]. unfold nav_setMax.
  replace (0 / (1 + 0)) with 0 by field. rewrite Rabs_R0, (rltb_t 0 tol) by apply tol_pos. rewrite !orb_true_r. cbn.
  eexists. split; [reflexivity|]. cbn. intros E. injection E as E1. lra.
Qed.
Print Assumptions C07_navigation_saturations_refuted.
