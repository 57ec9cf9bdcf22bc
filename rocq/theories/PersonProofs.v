(** Proofs about the person-following controller. *)
From Coq Require Import Reals Lra Lia Psatz List Bool Permutation Sorted.
From Verif Require Import Prelude EvalTac UnicycleFoot Ellipse FootSpec EllipseSpec EllipseProofs Controllers ControlSpec
  PersonFollowing PersonSpec.
Import ListNotations.
Open Scope R_scope.

(** ** Reference list *)
Lemma sorted_app : forall l1 l2, in_time_order (l1 ++ l2) ->
  in_time_order l1 /\ in_time_order l2 /\ (forall p q, In p l1 -> In q l2 -> t_time p <= t_time q).
Proof.
  unfold in_time_order. induction l1 as [|x l1 IH]; intros l2 H; cbn in *.
  - repeat split; auto; [constructor|]. intros p q [].
  - inversion H as [|? ? Hs Hf]; subst. destruct (IH _ Hs) as (A & B & C). rewrite Forall_app in Hf. destruct Hf as [F1 F2].
    split; [constructor; auto|]. split; [auto|]. intros p q [<-|Hp] Hq; [|auto]. rewrite Forall_forall in F2. auto.
Qed.

Lemma find_rev_spec : forall t rl nx p n, find_rev t nx rl = Some (p, n) ->
  exists r1 r2, rl = r1 ++ p :: r2 /\ t_time p <= t /\ Forall (fun q => t < t_time q) r1
    /\ n = match r1 with [] => nx | _ => Some (last r1 p) end.
Proof.
  intros t rl. induction rl as [|x rl IH]; intros nx p n H; cbn in H; [discriminate|].
  destruct (Rleb (t_time x) t) eqn:E.
  - injection H as <- <-. apply Rleb_true in E. exists [], rl. repeat split; auto.
  - apply Rleb_false in E. destruct (IH _ _ _ H) as (r1 & r2 & -> & A & B & C). exists (x :: r1), r2.
    repeat split; auto. rewrite C. destruct r1 as [|y r1]; [reflexivity|]. reflexivity.
Qed.

Lemma find_rev_some : forall t rl nx, (exists p, In p rl /\ t_time p <= t) -> exists p n, find_rev t nx rl = Some (p, n).
Proof.
  intros t rl. induction rl as [|x rl IH]; intros nx (p & Hp & Ht); [destruct Hp|]. cbn.
  destruct (Rleb (t_time x) t) eqn:E; [eauto|]. apply Rleb_false in E. destruct Hp as [->|Hp]; [lra|]. apply IH; eauto.
Qed.

Lemma find_neighbours : forall t l p n, find_rev t None (rev l) = Some (p, n) -> neighbours l t p n.
Proof.
  intros t l p n H. apply find_rev_spec in H. destruct H as (r1 & r2 & E & A & B & C).
  exists (rev r2), (rev r1). split.
  - rewrite <- (rev_involutive l), E, rev_app_distr. cbn. rewrite <- app_assoc. reflexivity.
  - split; [auto|]. split; [apply Forall_rev; auto|]. rewrite C.
    destruct r1 as [|x r1]; [reflexivity|]. destruct (exists_last (l := x :: r1)) as (m & z & Ez); [discriminate|].
    rewrite Ez, rev_app_distr, last_last. destruct m; reflexivity.
Qed.

(** Two neighbour pairs of the same time agree. *)
Lemma neighbours_unique : forall l t p n p' n', neighbours l t p n -> neighbours l t p' n' -> p = p' /\ n = n'.
Proof.
  intros l t p n p' n' (a & b & E & Hp & Hb & Hn) (a' & b' & E' & Hp' & Hb' & Hn').
  assert (H : p :: b = p' :: b').
  { rewrite E in E'. clear E Hn Hn'. revert a' E'. induction a as [|x a IH]; intros a' E'; destruct a' as [|y a']; cbn in E'.
    - exact E'.
    - injection E' as -> ->. rewrite Forall_forall in Hb. specialize (Hb p'). rewrite in_app_iff in Hb. specialize (Hb (or_intror (or_introl eq_refl))). lra.
    - injection E' as -> E'. subst b'. rewrite Forall_forall in Hb'. specialize (Hb' p). rewrite in_app_iff in Hb'. specialize (Hb' (or_intror (or_introl eq_refl))). lra.
    - injection E' as -> E'. eauto. }
  injection H as -> ->. subst. auto.
Qed.

(** The value described by a pair of neighbours. *)
Definition value_at (t : R) (p : tpoint) (n : option tpoint) : vec2 * vec2 :=
  match n with None => (t_y p, t_yd p) | Some n => interp t p n end.

Lemma neighbours_later : forall l t p n, neighbours l t p (Some n) -> t < t_time n /\ t_time p <= t.
Proof.
  intros l t p n (a & b & _ & Hp & Hb & Hn). destruct b as [|x b]; [discriminate|]. injection Hn as ->. inversion Hb; subst. auto.
Qed.

Lemma desired_value : forall l t v, pf_desired l t = Some v -> exists p n, neighbours l t p n /\ v = value_at t p n.
Proof.
  intros l t v H. unfold pf_desired in H. destruct (Rltb t 0); [discriminate|]. destruct l as [|f l]; [discriminate|].
  destruct (Rltb t (t_time f)); [discriminate|]. destruct (find_rev t None (rev (f :: l))) as [[p n]|] eqn:E; [|discriminate].
  apply find_neighbours in E. exists p, n. split; [auto|]. destruct n; injection H as <-; reflexivity.
Qed.

Lemma desired_from : forall l t p n, in_time_order l -> 0 <= t -> neighbours l t p n -> pf_desired l t = Some (value_at t p n).
Proof.
  intros l t p n Hs Ht Hn. unfold pf_desired. rewrite rltb_f by auto.
  pose proof Hn as (a & b & E & Hp & _). 
  destruct l as [|f l]; [destruct a; discriminate|].
  assert (Hf : t_time f <= t_time p).
  { destruct a as [|x a]; injection E as -> ->; [lra|]. inversion Hs as [|? ? _ Hf]; subst. rewrite Forall_forall in Hf. apply Hf.
    apply in_or_app. right. left. reflexivity. }
  rewrite rltb_f by lra.
  destruct (find_rev_some t (rev (f :: l)) None) as (p' & n' & E').
  { exists f. split; [rewrite <- in_rev; left; reflexivity|lra]. }
  rewrite E'. apply find_neighbours in E'. destruct (neighbours_unique _ _ _ _ _ _ Hn E') as [-> ->]. destruct n'; reflexivity.
Qed.

Lemma desired_some : forall l t, in_time_order l -> 0 <= t -> (exists f r, l = f :: r /\ t_time f <= t) ->
  exists p n, neighbours l t p n.
Proof.
  intros l t Hs Ht (f & r & -> & Hf). destruct (find_rev_some t (rev (f :: r)) None) as (p' & n' & E').
  { exists f. split; [rewrite <- in_rev; left; reflexivity|lra]. }
  exists p', n'. apply find_neighbours; auto.
Qed.

Lemma drop_le_split : forall t l1 p l2, in_time_order (l1 ++ p :: l2) -> t_time p <= t -> Forall (fun q => t < t_time q) l2 ->
  drop_le t (l1 ++ p :: l2) = l2.
Proof.
  intros t l1 p l2 Hs Hp Hl. induction l1 as [|x l1 IH]; cbn.
  - rewrite rleb_t by auto. destruct l2 as [|q l2]; [reflexivity|]. cbn. inversion Hl; subst. rewrite rleb_f by auto. reflexivity.
  - inversion Hs as [|? ? Hs' Hf]; subst. rewrite Forall_forall in Hf. specialize (Hf p (in_elt p l1 l2)).
    rewrite rleb_t by lra. auto.
Qed.

Lemma interp_refine : forall T t p n, t_time p <= T -> T <= t -> t < t_time n ->
  let '(y, yd) := interp T p n in interp t (MkTP T y yd) n = interp t p n.
Proof.
  intros T t [tp yp dp] [tn yn dn] H1 H2 H3. unfold interp; cbn in *. 
  assert (A : tn - tp <> 0) by lra. assert (B : tn - T <> 0) by lra.
  f_equal; apply vec2_ext; cbn; field; lra.
Qed.

(** The order invariant. *)
Lemma clearUpTo_sorted : forall t k, in_time_order (k_traj k) -> in_time_order (k_traj (fst (pf_clearUpTo t k))).
Proof.
  intros t k Hs. unfold pf_clearUpTo. destruct (Rltb t 0) eqn:E0; [exact Hs|]. destruct (k_traj k) as [|f l] eqn:El; [cbn; rewrite El; exact Hs|].
  destruct (pf_desired (f :: l) t) as [[y yd]|] eqn:E; [|cbn; rewrite El; exact Hs]. cbn [fst pf_with_traj k_traj].
  apply desired_value in E. destruct E as (p & n & (a & b & Ea & Hp & Hb & _) & _). rewrite Ea in *.
  rewrite drop_le_split by auto. destruct (sorted_app _ _ Hs) as (_ & S2 & _). inversion S2; subst.
  constructor; [assumption|]. eapply Forall_impl; [|exact Hb]. cbn; intros; lra.
Qed.

Lemma run_sorted : forall f o k, sorting f -> in_time_order (k_traj k) -> in_time_order (k_traj (pf_run f k o)).
Proof.
  intros f o k Hf Hs. unfold pf_run, pf_call. destruct o.
  - unfold pf_setDist. destruct (Reqb _ _); exact Hs.
  - unfold pf_setGain. destruct (Rleb _ _); exact Hs.
  - unfold pf_setPoint. destruct (Rltb _ _); [exact Hs|]. apply Hf.
  - constructor.
  - apply clearUpTo_sorted; auto.
  - unfold pf_setEll. cbv zeta. destruct (e_set e); [|exact Hs]. destruct (_ || _); [exact Hs|]. destruct (ell_set5 _ _ _ _ _ _); exact Hs.
  - unfold pf_setCons. destruct (Rltb _ _); exact Hs.
  - unfold pf_setOff. destruct (Rltb a 0); [exact Hs|]. destruct (Rltb b 0); [exact Hs|]. unfold pf_setEll. cbv zeta.
    destruct (e_set _); [|exact Hs]. destruct (_ || _); [exact Hs|]. destruct (ell_set5 _ _ _ _ _ _); exact Hs.
  - exact Hs.
Qed.

Lemma history_sorted : forall f ops, sorting f -> in_time_order (k_traj (pf_history f ops)).
Proof.
  intros f ops Hf. unfold pf_history. assert (H : in_time_order (k_traj pf_new)) by (repeat constructor).
  revert H. generalize pf_new. induction ops as [|o ops IH]; intros k H; [exact H|]. cbn. apply IH, run_sorted; auto.
Qed.

(** ** Free space *)
(** Outer and inner ellipse are either both absent or concentric, the inner one not larger. *)
Definition nested (o i : ell) : Prop :=
  (e_set o = false /\ e_set i = false) \/
  exists a b a' b' th c, is_ell a b th c o /\ is_ell a' b' th c i /\ a' <= a /\ b' <= b.

Lemma proper_is : forall e, proper e -> e_set e = false \/ exists a b th c, is_ell a b th c e.
Proof. intros e [H|(a & b & th & cx & cy & e0 & H)]; [auto|]. right. apply set5_is_ell in H. destruct H as (H & _). eauto. Qed.

Record safe (k : pf) : Prop := MkSafe {
  sf_nest : nested (k_outer k) (k_inner k); sf_off : 0 <= k_offMaj k /\ 0 <= k_offMin k; sf_cons : 0 <= k_cons k }.

Lemma nested_self : forall e, (e_set e = false \/ exists a b th c, is_ell a b th c e) -> nested e e.
Proof. intros e [H|(a & b & th & c & H)]; [left; auto|]. right. exists a, b, a, b, th, c. repeat split; try apply H; lra. Qed.

Lemma setEll_safe : forall e k, (e_set e = false \/ exists a b th c, is_ell a b th c e) ->
  0 <= k_offMaj k /\ 0 <= k_offMin k -> 0 <= k_cons k -> safe (fst (pf_setEll e k)) /\ k_outer (fst (pf_setEll e k)) = e.
Proof.
  intros e k He Ho Hc. pose proof (nested_self e He) as Hn. unfold pf_setEll. cbv zeta. destruct (e_set e) eqn:Es.
  - destruct He as [He|(a & b & th & c & H)]; [congruence|]. destruct H as (H1 & H2 & H3 & H4 & H5 & H6 & H7 & Ha & Hb).
    destruct (_ || _); [split; [constructor; auto|reflexivity]|].
    destruct (set5_cases (e_a e - k_offMaj k) (e_b e - k_offMin k) (e_th e) (vx (e_d e)) (vy (e_d e)) e) as [[-> _]|(A & B & ->)].
    + split; [constructor; auto|reflexivity].
    + cbn [fst]. split; [|reflexivity]. constructor; cbn; auto. right. exists a, b, (e_a e - k_offMaj k), (e_b e - k_offMin k), th, c.
      pose proof em10_pos. rewrite H5, H6, H7, H4 in *. split; [repeat split; auto|]. split; [|lra].
      repeat split; cbn; auto; try lra. destruct c; reflexivity.
  - split; [constructor; auto|reflexivity].
Qed.

Lemma safe_outer : forall k, safe k -> e_set (k_outer k) = false \/ exists a b th c, is_ell a b th c (k_outer k).
Proof. intros k [[[H _]|(a & b & a' & b' & th & c & H & _)] _ _]; eauto 6. Qed.

Lemma run_safe : forall f o k, match o with PfEll e => proper e | _ => True end -> safe k ->
  safe (pf_run f k o) /\ k_outer (pf_run f k o) = match o with PfEll e => e | _ => k_outer k end.
Proof.
  intros f o k Hp Hs. pose proof Hs as [A B C]. unfold pf_run, pf_call. destruct o.
  - unfold pf_setDist. destruct (Reqb _ _); split; auto; constructor; auto.
  - unfold pf_setGain. destruct (Rleb _ _); split; auto; constructor; auto.
  - unfold pf_setPoint. destruct (Rltb _ _); split; auto; constructor; auto.
  - split; auto; constructor; auto.
  - unfold pf_clearUpTo. destruct (Rltb _ _); [auto|]. destruct (k_traj k); [auto|]. destruct (pf_desired _ _) as [[y yd]|]; split; auto; constructor; auto.
  - apply setEll_safe; auto. apply proper_is; auto.
  - unfold pf_setCons. destruct (Rltb _ _) eqn:E; [auto|]. apply Rltb_false in E. split; auto; constructor; auto.
  - unfold pf_setOff. destruct (Rltb a 0) eqn:Ea; [auto|]. destruct (Rltb b 0) eqn:Eb; [auto|]. apply Rltb_false in Ea. apply Rltb_false in Eb.
    apply (setEll_safe (k_outer k) (pf_with_off a b k)); cbn; auto. apply safe_outer; auto.
  - split; auto; constructor; auto.
Qed.

Lemma fold_safe : forall f ops k e, proper_ops ops -> safe k -> k_outer k = e ->
  safe (fold_left (pf_run f) ops k)
  /\ k_outer (fold_left (pf_run f) ops k) = last_of (fun o => match o with PfEll e => Some e | _ => None end) e ops.
Proof.
  intros f ops. induction ops as [|o ops IH]; intros k e Hp H1 H2; [auto|].
  inversion Hp as [|? ? P Q]; subst. cbn. destruct (run_safe f o k P H1) as [S1 S2]. apply IH; auto.
  rewrite S2. destruct o; auto.
Qed.

Lemma new_safe : safe pf_new.
Proof. constructor; cbn; try lra. left; auto. Qed.

Lemma history_safe : forall f ops, proper_ops ops -> safe (pf_history f ops) /\ k_outer (pf_history f ops) = last_ell ops.
Proof. intros f ops H. apply fold_safe; auto using new_safe. Qed.

Lemma tanh_range : forall x, 0 <= x -> 0 <= tanh x < 1.
Proof.
  intros x Hx. unfold tanh, sinh, cosh. pose proof (exp_pos x). pose proof (exp_pos (- x)).
  assert (exp (- x) <= exp x). { destruct (Req_dec x 0) as [->|N]; [rewrite Ropp_0; lra|]. left. apply exp_increasing. lra. }
  replace ((exp x - exp (- x)) / 2 / ((exp x + exp (- x)) / 2)) with ((exp x - exp (- x)) * / (exp x + exp (- x))) by (field; lra).
  assert (0 < / (exp x + exp (- x))) by (apply Rinv_0_lt_compat; lra). split.
  - apply Rmult_le_pos; lra.
  - apply (Rmult_lt_reg_r (exp x + exp (- x))); [lra|]. rewrite Rmult_assoc, Rinv_l by lra. lra.
Qed.

Lemma level_convex : forall a b th c p q l, 0 < a -> 0 < b -> 0 <= l <= 1 -> level a b th c p <= 1 -> level a b th c q <= 1 ->
  level a b th c (vadd (vscale l p) (vscale (1 - l) q)) <= 1.
Proof.
  intros a b th c p q l Ha Hb Hl Hp Hq.
  set (up := axis_u th c p / a). set (vp := axis_v th c p / b). set (uq := axis_u th c q / a). set (vq := axis_v th c q / b).
  assert (E : level a b th c (vadd (vscale l p) (vscale (1 - l) q)) = (l * up + (1 - l) * uq) ^ 2 + (l * vp + (1 - l) * vq) ^ 2).
  { unfold level, up, uq, vp, vq, axis_u, axis_v, vadd, vscale; cbn. field. lra. }
  rewrite E. unfold level in Hp, Hq. fold up vp in Hp. fold uq vq in Hq.
  assert (K : (l * up + (1 - l) * uq) ^ 2 + (l * vp + (1 - l) * vq) ^ 2
            = l * (up ^ 2 + vp ^ 2) + (1 - l) * (uq ^ 2 + vq ^ 2) - l * (1 - l) * ((up - uq) ^ 2 + (vp - vq) ^ 2)) by ring.
  rewrite K. pose proof (pow2_ge_0 (up - uq)). pose proof (pow2_ge_0 (vp - vq)).
  assert (0 <= l * (1 - l) * ((up - uq) ^ 2 + (vp - vq) ^ 2)) by (apply Rmult_le_pos; [apply Rmult_le_pos|]; lra).
  assert (l * (up ^ 2 + vp ^ 2) <= l * 1) by (apply Rmult_le_compat_l; lra).
  assert ((1 - l) * (uq ^ 2 + vq ^ 2) <= (1 - l) * 1) by (apply Rmult_le_compat_l; lra). lra.
Qed.

Lemma level_shrink : forall a b a' b' th c p, 0 < a' -> 0 < b' -> a' <= a -> b' <= b -> level a b th c p <= level a' b' th c p.
Proof.
  intros a b a' b' th c p Ha Hb Haa Hbb. unfold level.
  assert (K : forall u x x', 0 < x' -> x' <= x -> (u / x) ^ 2 <= (u / x') ^ 2).
  { intros u x x' H1 H2. replace ((u / x) ^ 2) with (u ^ 2 * / (x * x)) by (field; lra). replace ((u / x') ^ 2) with (u ^ 2 * / (x' * x')) by (field; lra).
    apply Rmult_le_compat_l; [apply pow2_ge_0|]. apply Rinv_le_contravar; [apply Rmult_lt_0_compat; auto|]. apply Rmult_le_compat; lra. }
  pose proof (K (axis_u th c p) a a' Ha Haa). pose proof (K (axis_v th c p) b b' Hb Hbb). lra.
Qed.

Lemma inside_level : forall a b th c e p, is_ell a b th c e -> (ell_inside e p = true <-> level a b th c p <= 1).
Proof.
  intros a b th c e p H. unfold ell_inside. rewrite (proj1 H). cbn [negb]. rewrite Rleb_true, vnorm_le_1, (is_ell_level a b th c) by auto. reflexivity.
Qed.

Lemma project_level : forall a b th c e p pr, is_ell a b th c e -> level a b th c (ell_project e p pr) <= 1.
Proof.
  intros a b th c e p pr H. destruct (Rle_dec (level a b th c p) 1) as [L|L].
  - destruct (project_cases a b th c e p pr H) as [[_ ->]|[N _]]; lra.
  - rewrite (project_boundary a b th c); auto; lra.
Qed.

Lemma blend_nonneg : forall g k pos ang y, 0 <= pf_blend g k pos ang y.
Proof.
  intros. unfold pf_blend. destruct (e_set _); [|lra]. destruct (ell_closest _ _ _); [|lra]. cbv zeta.
  destruct (Rgtb _ em4) eqn:E; [|lra]. apply Rltb_true in E. assert (0 < em4) by (unfold em4; apply Rinv_0_lt_compat, pow_lt; lra).
  apply Rmult_le_pos; [apply Rabs_pos|]. left. apply Rinv_0_lt_compat. lra.
Qed.

Lemma tracked_inside : forall g k t pos ang y yd, safe k ->
  pf_desired_free g k t pos ang = Some (y, yd) -> ell_inside (k_outer k) y = true.
Proof.
  intros g k t pos ang y yd [Hn _ Hc] H. unfold pf_desired_free in H. destruct (pf_desired (k_traj k) t) as [[y0 yd0]|]; [|discriminate].
  destruct Hn as [[Ho Hi]|(a & b & a' & b' & th & c & Ho & Hi & Ha & Hb)].
  - unfold ell_inside. rewrite Ho. reflexivity.
  - assert (P : 0 < a') by apply Hi. assert (Q : 0 < b') by apply Hi. rewrite (inside_level a b th c) by auto.
    rewrite (proj1 Hi), (proj1 Ho) in H. cbn [andb] in H. destruct (ell_inside (k_inner k) y0) eqn:E.
    + injection H as <- <-. apply (inside_level a' b' th c) in E; auto. pose proof (level_shrink a b a' b' th c y0 P Q Ha Hb). lra.
    + injection H as <- <-. pose proof (tanh_range (k_cons k * pf_blend g k pos ang y0)) as HT.
      specialize (HT (Rmult_le_pos _ _ Hc (blend_nonneg g k pos ang y0))).
      apply level_convex; try lra.
      * pose proof (level_shrink a b a' b' th c (ell_project (k_inner k) y0 pos) P Q Ha Hb).
        pose proof (project_level a' b' th c (k_inner k) y0 pos Hi). lra.
      * apply project_level; auto.
Qed.

(** ** The control law *)
Lemma run_dist : forall f o k, vx (k_dist k) <> 0 -> vx (k_dist (pf_run f k o)) <> 0.
Proof.
  intros f o k H. unfold pf_run, pf_call. destruct o; cbn; auto.
  - unfold pf_setDist. destruct (Reqb x 0) eqn:E; [exact H|]. apply Reqb_false in E. exact E.
  - unfold pf_setGain. destruct (Rleb _ _); exact H.
  - unfold pf_setPoint. destruct (Rltb _ _); exact H.
  - unfold pf_clearUpTo. destruct (Rltb _ _); [auto|]. destruct (k_traj k); [auto|]. destruct (pf_desired _ _) as [[y yd]|]; exact H.
  - unfold pf_setEll. cbv zeta. destruct (e_set e); [|exact H]. destruct (_ || _); [exact H|]. destruct (ell_set5 _ _ _ _ _ _); exact H.
  - unfold pf_setCons. destruct (Rltb _ _); exact H.
  - unfold pf_setOff. destruct (Rltb a 0); [exact H|]. destruct (Rltb b 0); [exact H|]. unfold pf_setEll. cbv zeta.
    destruct (e_set _); [|exact H]. destruct (_ || _); [exact H|]. destruct (ell_set5 _ _ _ _ _ _); exact H.
Qed.

Lemma run_gain : forall f o k, 0 < k_gain k -> 0 < k_gain (pf_run f k o).
Proof.
  intros f o k H. unfold pf_run, pf_call. destruct o; cbn; auto.
  - unfold pf_setDist. destruct (Reqb x 0) eqn:E; exact H.
  - unfold pf_setGain. destruct (Rleb _ _) eqn:E; [exact H|]. apply Rleb_false in E. exact E.
  - unfold pf_setPoint. destruct (Rltb _ _); exact H.
  - unfold pf_clearUpTo. destruct (Rltb _ _); [auto|]. destruct (k_traj k); [auto|]. destruct (pf_desired _ _) as [[y yd]|]; exact H.
  - unfold pf_setEll. cbv zeta. destruct (e_set e); [|exact H]. destruct (_ || _); [exact H|]. destruct (ell_set5 _ _ _ _ _ _); exact H.
  - unfold pf_setCons. destruct (Rltb _ _); exact H.
  - unfold pf_setOff. destruct (Rltb a 0); [exact H|]. destruct (Rltb b 0); [exact H|]. unfold pf_setEll. cbv zeta.
    destruct (e_set _); [|exact H]. destruct (_ || _); [exact H|]. destruct (ell_set5 _ _ _ _ _ _); exact H.
Qed.

Lemma history_dist : forall f ops, vx (k_dist (pf_history f ops)) <> 0 /\ 0 < k_gain (pf_history f ops).
Proof.
  intros f ops. unfold pf_history. assert (H : vx (k_dist pf_new) <> 0 /\ 0 < k_gain pf_new) by (cbn; lra).
  revert H. generalize pf_new. induction ops as [|o ops IH]; intros k [H1 H2]; [auto|]. cbn. apply IH. auto using run_dist, run_gain.
Qed.

(** Velocity of a point rigidly attached at [d] to a unicycle at heading [th] moving with [v], turning at [w]. *)
Definition carried (th : R) (d v : vec2) (w : R) : vec2 :=
  V2 (vx v + w * (- sin th * vx d - cos th * vy d)) (vy v + w * (cos th * vx d - sin th * vy d)).

Lemma law_velocity : forall g k c y yd, vx (k_dist k) <> 0 ->
  pf_desired_free g k (k_time k) (k_upos k) (k_theta k) = Some (y, yd) -> pf_raw g k = Some c ->
  let '(v, w) := unicycle_dot (MkU (k_upos k) (k_theta k)) c in
  carried (k_theta k) (k_dist k) v w = vsub yd (vscale (k_gain k) (vsub (k_meas k) y)).
Proof.
  intros g k c y yd Hd HD HR. unfold pf_raw in HR. rewrite HD in HR. cbv zeta in HR. injection HR as <-. unfold unicycle_dot, carried. cbn [c_fwd c_ang c_lat u_angle].
  destruct (k_dist k) as [dx dy]; cbn in *.
  pose proof (cs1 (k_theta k)) as Hcs. revert Hcs. generalize (sin (k_theta k)). generalize (cos (k_theta k)). intros co s Hcs.
  apply vec2_ext; cbn.
  - transitivity ((vx yd - k_gain k * (vx (k_meas k) - vx y)) * (co * co + s * s)); [field; auto|rewrite Hcs; ring].
  - transitivity ((vy yd - k_gain k * (vy (k_meas k) - vy y)) * (co * co + s * s)); [field; auto|rewrite Hcs; ring].
Qed.

Lemma attached_derivative : forall (px py th : R -> R) t d v w,
  derivable_pt_lim px t (vx v) -> derivable_pt_lim py t (vy v) -> derivable_pt_lim th t w ->
  derivable_pt_lim (fun z => vx (vadd (V2 (px z) (py z)) (rot (th z) d))) t (vx (carried (th t) d v w))
  /\ derivable_pt_lim (fun z => vy (vadd (V2 (px z) (py z)) (rot (th z) d))) t (vy (carried (th t) d v w)).
Proof.
  intros px py th t d v w Hx Hy Ht.
  assert (DC : derivable_pt_lim (fun z => cos (th z)) t (- sin (th t) * w)).
  { apply (derivable_pt_lim_comp th cos); auto. apply derivable_pt_lim_cos. }
  assert (DS : derivable_pt_lim (fun z => sin (th z)) t (cos (th t) * w)).
  { apply (derivable_pt_lim_comp th sin); auto. apply derivable_pt_lim_sin. }
  split.
  - replace (vx (carried (th t) d v w)) with (vx v + (vx d * (- sin (th t) * w) + (- vy d) * (cos (th t) * w))) by (unfold carried; cbn; ring).
    apply (derivable_pt_lim_ext_eq (fun z => px z + (vx d * cos (th z) + (- vy d) * sin (th z)))).
    { intros z. unfold vadd, rot; cbn. ring. }
    apply derivable_pt_lim_plus; auto. apply (derivable_pt_lim_plus (fun z => vx d * cos (th z)) (fun z => - vy d * sin (th z))).
    + apply (derivable_pt_lim_scal (fun z => cos (th z))); auto.
    + apply (derivable_pt_lim_scal (fun z => sin (th z))); auto.
  - replace (vy (carried (th t) d v w)) with (vy v + (vx d * (cos (th t) * w) + vy d * (- sin (th t) * w))) by (unfold carried; cbn; ring).
    apply (derivable_pt_lim_ext_eq (fun z => py z + (vx d * sin (th z) + vy d * cos (th z)))).
    { intros z. unfold vadd, rot; cbn. ring. }
    apply derivable_pt_lim_plus; auto. apply (derivable_pt_lim_plus (fun z => vx d * sin (th z)) (fun z => vy d * cos (th z))).
    + apply (derivable_pt_lim_scal (fun z => sin (th z))); auto.
    + apply (derivable_pt_lim_scal (fun z => cos (th z))); auto.
Qed.

(** Linear decay. *)
Lemma exp_decay : forall (e : R -> R) g, (forall t, 0 <= t -> derivable_pt_lim e t (- g * e t)) ->
  forall t, 0 <= t -> e t = e 0 * exp (- (g * t)).
Proof.
  intros e g H t Ht.
  assert (D : forall z, 0 <= z -> derivable_pt_lim (fun z => e z * exp (g * z)) z 0).
  { intros z Hz. replace 0 with (- g * e z * exp (g * z) + e z * (exp (g * z) * (g * 1))) by ring.
    apply (derivable_pt_lim_mult e (fun z => exp (g * z))); [auto|].
    apply (derivable_pt_lim_comp (fun z => g * z) exp); [|apply derivable_pt_lim_exp].
    apply (derivable_pt_lim_scal id). apply derivable_pt_lim_id. }
  assert (E : e t * exp (g * t) = e 0).
  { destruct Ht as [Ht|<-].
    - destruct (MVT_cor2 (fun z => e z * exp (g * z)) (fun _ => 0) 0 t Ht) as (x & Ex & _).
      { intros z [Hz _]. apply D; auto. }
      rewrite Rmult_0_r, exp_0 in Ex. lra.
    - rewrite Rmult_0_r, exp_0. ring. }
  rewrite <- E. rewrite Rmult_assoc, <- exp_plus. replace (g * t + - (g * t)) with 0 by ring. rewrite exp_0. ring.
Qed.
