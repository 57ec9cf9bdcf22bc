(** Plans in binary64 arithmetic: terminal steps, starting feet, the whole of computeNewSteps. *)
From Coq Require Import String Reals ZArith List Bool Lia Lra.
From Flocq Require Import Core IEEE754.BinarySingleNaN.
From Verif Require Import Prelude Rounding FootPrint GenPhases RoundedGen RoundedGenSpec RoundedGenProofs2 RoundedGenProofs3
  Doubles DoublesGen DoublesSpec DoublesProofs TimedPlan TimedPlanSpec TimedPlanProofs2 TimedPlanProofs3.
Import ListNotations.
Open Scope R_scope.

Lemma fadd_mono : forall x y n : f64, fin x = true -> fin y = true -> number n -> 0 <= key n -> 0 <= key x -> key x <= key y ->
  fin (fadd y n) = true -> fin (fadd x n) = true /\ key (fadd x n) <= key (fadd y n).
Proof.
  intros x y n Fx Fy Nn Kn Kx Kxy F. destruct (fadd_up y n Fy Nn Kn) as (_ & _ & U). destruct (U F) as (Fn & E).
  rewrite !key_fin in * by auto.
  pose proof (Bplus_correct 53 1024 prec64 emax64 mode_NE x n Fx Fn) as Q. fold (fadd x n) in Q.
  rewrite <- b64_eq in Q. change (B2R x) with (f2r x) in Q. change (B2R n) with (f2r n) in Q.
  assert (M : b64 (f2r x + f2r n) <= f2r (fadd y n)) by (rewrite E; apply (r_mono _ b64_rounding); lra).
  assert (M0 : 0 <= b64 (f2r x + f2r n)).
  { rewrite <- (rnd_0 _ b64_rounding). apply (r_mono _ b64_rounding). lra. }
  pose proof (f2r_lt (fadd y n)) as T. apply Rabs_def2 in T.
  rewrite Rlt_bool_true in Q by (rewrite Rabs_pos_eq; lra). destruct Q as (Q1 & Q2 & _).
  change (fin (fadd x n) = true) in Q2. change (f2r (fadd x n) = b64 (f2r x + f2r n)) in Q1. split; auto. rewrite (key_fin _ Q2), (key_fin _ F), Q1. lra.
Qed.
Opaque fadd fsub fmul fdiv fmake f1 fm1 fpi.

Section Terminal.
Variable P : Type.
Variable c : tcfg f64.
Variable o : geo f64 P.

Lemma terminal_steps : forall (sw : bool) (l r : tfoot f64 P) (prev : P * f64) (l' r' : tfoot f64 P), last_opt (if sw then r else l) = Some prev ->
  t_terminal ieee c o sw l r = Ok (l', r') -> exists new, grown l r sw new l' r' /\
  let a := fadd (c_init c) (c_nom c) in let b := fadd (snd prev) (c_nom c) in
  let t := if Bltb a b then b else a in
  map snd new = [] \/ map snd new = [t] \/ map snd new = [t; fadd t (c_nom c)].
Proof.
  intros sw l r prev l' r' E H. unfold t_terminal in H. rewrite E in H.
  change (a_add ieee (c_init c) (c_nom c)) with (fadd (c_init c) (c_nom c)) in H.
  change (a_add ieee (snd prev) (c_nom c)) with (fadd (snd prev) (c_nom c)) in H.
  change (a_lt ieee (fadd (c_init c) (c_nom c)) (fadd (snd prev) (c_nom c))) with (Bltb (fadd (c_init c) (c_nom c)) (fadd (snd prev) (c_nom c))) in H.
  cbv zeta in *. set (t := if Bltb (fadd (c_init c) (c_nom c)) (fadd (snd prev) (c_nom c)) then fadd (snd prev) (c_nom c) else fadd (c_init c) (c_nom c)) in *.
  assert (G0 : forall sw2 (l2 r2 : tfoot f64 P), grown l2 r2 sw2 [] l2 r2) by (intros; unfold grown; simpl; rewrite !app_nil_r; auto).
  destruct (o_term o sw l r prev (a_sub ieee t (snd prev))) as [[|]|]; [| |discriminate].
  - destruct (o_pose o sw l r (c_end c)) as [p|]; [|discriminate].
    destruct (t_step ieee sw l r p t) as [[l1 r1]|] eqn:S1; [|discriminate].
    destruct (o_pose o (negb sw) l1 r1 (c_end c)) as [q|]; [|discriminate].
    destruct (t_step ieee (negb sw) l1 r1 q (a_add ieee t (c_nom c))) as [[l2 r2]|] eqn:S2; [|discriminate].
    inversion H; subst l2 r2. exists [(p, t); (q, fadd t (c_nom c))]. split; [|right; right; reflexivity].
    eapply grown_cons; [exact S1|]. eapply grown_cons; [exact S2|]. apply G0.
  - destruct (o_still o sw l r prev) as [tiny|]; [|discriminate]. destruct (negb tiny).
    + destruct (o_par o sw l r) as [p|]; [|discriminate].
      destruct (t_step ieee sw l r p t) as [[l1 r1]|] eqn:S1; [|discriminate]. inversion H; subst l1 r1.
      exists [(p, t)]. split; [|right; left; reflexivity]. eapply grown_cons; [exact S1|]. apply G0.
    + inversion H; subst l' r'. exists []. split; auto.
Qed.

Hypothesis Fi : fin (c_init c) = true.
Hypothesis Fe : fin (c_end c) = true.
Hypothesis Hi : 0 <= key (c_init c).
Hypothesis Hie : key (c_init c) < key (c_end c).
Hypothesis Fn : fin (fadd (c_end c) (c_nom c)) = true.
Hypothesis Hn : Bltb (c_nom c) fzero = false.
Hypothesis Hadv : advances (c_nom c) (c_init c) (fadd (c_end c) (c_nom c)).

Lemma terminal_times : forall prev, number prev -> 0 <= key prev -> key prev <= key (c_end c) ->
  let a := fadd (c_init c) (c_nom c) in let b := fadd prev (c_nom c) in
  let t := if Bltb a b then b else a in lt64 prev t /\ lt64 t (fadd t (c_nom c)).
Proof.
  intros prev Np K0 K1 a b t.
  assert (NN : number (c_nom c) /\ 0 <= key (c_nom c)).
  { destruct (not_neg _ Hn) as [E|E]; auto. exfalso. rewrite E in Fn. destruct (c_end c); discriminate. }
  destruct NN as (NN & KN). assert (Fp : fin prev = true) by (apply key_number_fin with fzero (c_end c); auto).
  destruct (fadd_mono (c_init c) (c_end c) (c_nom c)) as (A1 & A2); auto; try lra.
  destruct (fadd_mono prev (c_end c) (c_nom c)) as (B1 & B2); auto. fold a in A1, A2. fold b in B1, B2.
  destruct (fadd_up (c_end c) (c_nom c) Fe NN KN) as (E1 & E2 & _).
  pose proof (fin_number _ Fi) as Ni.
  assert (AI : lt64 (c_init c) a) by (apply Hadv; auto; apply le64_key; auto; lra). apply lt64_inv in AI.
  assert (T : fin t = true /\ key a <= key t /\ key b <= key t /\ key t <= key (fadd (c_end c) (c_nom c))).
  { unfold t. destruct (Bltb a b) eqn:L.
    - apply lt64_inv in L. repeat split; auto; lra.
    - apply blt_false in L; auto using fin_number. repeat split; auto; lra. }
  destruct T as (T1 & T2 & T3 & T4). pose proof (fin_number _ T1) as NT. split.
  - apply lt64_key; auto. destruct (Rle_lt_dec (key (c_init c)) (key prev)) as [G|G]; [|lra].
    assert (L : lt64 prev b) by (apply Hadv; auto; apply le64_key; auto; lra). apply lt64_inv in L. lra.
  - apply Hadv; auto; apply le64_key; auto; lra.
Qed.
End Terminal.

(** ** The starting feet *)
Lemma last_in : forall X (l : list X) x, last_opt l = Some x -> In x l.
Proof. intros X l. induction l as [|y l IH]; intros x H; [discriminate|]. simpl in H. destruct l; [inversion H; left; auto|right; apply IH; auto]. Qed.
Lemma last_none : forall X (l : list X), last_opt l = None -> l = [].
Proof. intros X [|x l] H; auto. exfalso. revert x H. induction l as [|y l IH]; intros x H; [discriminate|]. apply (IH y H). Qed.

Section Feet.
Variable P : Type.
Variable c : tcfg f64.
Variable o : geo f64 P.
Hypothesis Fi : fin (c_init c) = true.

(** With a swing foot and a stance foot chosen, the stance foot has the last step, at a time not after [init]. *)
Lemma feet_ok : forall (left right l r : tfoot f64 P) sw first prev, stored left -> stored right ->
  t_feet ieee c o left right = Some (l, r, sw, first) -> last_opt (if sw then r else l) = Some prev ->
  started c o left right l r /\ 0 <= key (c_init c) /\
  (snd prev = fnan \/ (number (snd prev) /\ 0 <= key (snd prev) /\ key (snd prev) <= key (c_init c))) /\
  (forall x, last_opt (if sw then l else r) = Some x -> number (snd x) -> number (snd prev) -> key (snd x) <= key (snd prev)).
Proof.
  intros left right l r sw first prev SL SR H E. unfold t_feet in H.
  pose proof (fin_number _ Fi) as Ni.
  assert (CK : forall (t0 : f64) b x y, (if a_lt ieee (c_init c) t0 || below0 ieee (c_init c) || b then None else Some x) = Some y ->
    Bltb (c_init c) t0 = false /\ 0 <= key (c_init c) /\ x = y :> (tfoot f64 P * tfoot f64 P * bool * bool)).
  { intros t0 b x y Q. destruct (a_lt ieee (c_init c) t0) eqn:Q1; [discriminate|].
    destruct (below0 ieee (c_init c)) eqn:Q2; [discriminate|]. destruct b; [discriminate|].
    split; auto. split; [|inversion Q; reflexivity]. unfold below0 in Q2. rewrite c0_zero in Q2.
    change (Bltb (c_init c) fzero = false) in Q2. apply blt_false in Q2; auto. discriminate. }
  assert (OLD : forall x : P * f64, (In x left \/ In x right) -> Bltb (c_init c) (snd x) = false ->
    snd x = fnan \/ (number (snd x) /\ 0 <= key (snd x) /\ key (snd x) <= key (c_init c))).
  { intros x I L. assert (Q : Bltb (snd x) fzero = false) by (destruct I; [apply SL|apply SR]; auto).
    destruct (not_neg _ Q) as [N|(N & K)]; auto. right. repeat split; auto. apply blt_false in L; auto. }
  destruct (last_opt left) as [a|] eqn:LL; destruct (last_opt right) as [b|] eqn:LR.
  - assert (ST : started c o left right left right).
    { unfold started. destruct left; [discriminate|]. auto. }
    destruct (a_eq ieee (snd a) (snd b)) eqn:EQ.
    + apply CK in H. destruct H as (H1 & H2 & H3). injection H3; intros X4 X3 X2 X1. subst l r first. clear X3 H3.
      split; auto. split; auto.
      destruct (nan_or (snd a)) as [NA|NA]. { rewrite NA in EQ. simpl in EQ. destruct (beq_nan (snd b)). congruence. }
      destruct (nan_or (snd b)) as [NB|NB]. { rewrite NB in EQ. simpl in EQ. destruct (beq_nan (snd a)). congruence. }
      simpl in EQ. rewrite beq_key in EQ by auto. rcasesh EQ; [|discriminate].
      assert (HB : Bltb (c_init c) (snd b) = false).
      { rewrite blt_key in * by auto. rcasesh H1; [discriminate|]. rcases; auto; lra. }
      destruct sw; [rewrite LR in E|rewrite LL in E]; inversion E; subst prev.
      * split; [apply OLD; auto; right; apply last_in; auto|]. intros x X. rewrite LL in X. inversion X; subst. lra.
      * split; [apply OLD; auto; left; apply last_in; auto|]. intros x X. rewrite LR in X. inversion X; subst. lra.
    + destruct (a_lt ieee (snd a) (snd b)) eqn:LT.
      * apply CK in H. destruct H as (H1 & H2 & H3). inversion H3; subst l r first sw. clear H3.
        rewrite LR in E. inversion E; subst prev. split; auto. split; auto. split; [apply OLD; auto; right; apply last_in; auto|].
        intros x X Nx Nb. rewrite LL in X. inversion X; subst x. simpl in LT. rewrite blt_key in LT by auto. rcasesh LT; [lra|discriminate].
      * apply CK in H. destruct H as (H1 & H2 & H3). inversion H3; subst l r first sw. clear H3.
        rewrite LL in E. inversion E; subst prev. split; auto. split; auto. split; [apply OLD; auto; left; apply last_in; auto|].
        intros x X Nx Nb. rewrite LR in X. inversion X; subst x. simpl in LT. rewrite blt_key in LT by auto. rcasesh LT; [discriminate|lra].
  - apply CK in H. destruct H as (H1 & H2 & H3). inversion H3; subst l r first sw. clear H3.
    rewrite LL in E. inversion E; subst prev. apply last_none in LR. subst right.
    split; [destruct left; [discriminate|split; auto]|]. split; auto. split; [apply OLD; auto; left; apply last_in; auto|].
    intros x X. discriminate.
  - apply CK in H. destruct H as (H1 & H2 & H3). inversion H3; subst l r first sw. clear H3.
    rewrite LR in E. inversion E; subst prev. apply last_none in LL. subst left.
    split; [destruct right; [discriminate|split; auto]|]. split; auto. split; [apply OLD; auto; right; apply last_in; auto|].
    intros x X. discriminate.
  - apply last_none in LL. apply last_none in LR. subst left right.
    destruct (o_point o); [|discriminate]. injection H; intros X4 X3 X2 X1. clear X3 X4 H. unfold t_keep, t_add in *.
    destruct (below0 ieee (c_init c)) eqn:Q2.
    + subst l r. destruct sw; discriminate.
    + unfold below0 in Q2. rewrite c0_zero in Q2. change (Bltb (c_init c) fzero = false) in Q2. apply blt_false in Q2; auto; [|discriminate].
      change (key fzero) with 0 in Q2. subst l r. split; [split; auto|]. split; auto.
      destruct sw; inversion E; subst prev; simpl; (split; [right; repeat split; auto; lra|]); intros x X _ _; inversion X; subst x; simpl; lra.
Qed.
End Feet.

(** ** The plan *)
Lemma times_stored : forall P (l : list (P * f64)), times_ok l -> stored l.
Proof.
  intros P l H x I. specialize (H x I). destruct (le64_number _ _ H) as (N & M). apply le64_inv in H.
  rewrite blt_key by auto. rcases; auto; lra.
Qed.

Section Plan.
Variable P : Type.
Variable c : tcfg f64.
Variable o : geo f64 P.
Hypothesis Fi : fin (c_init c) = true.
Hypothesis Fe : fin (c_end c) = true.
Hypothesis Hn : Bltb (c_nom c) fzero = false.
Hypothesis Hadv : advances (c_dT c) (c_init c) (c_end c).

Definition start_state (l r : tfoot f64 P) (sw first : bool) (prev : P * f64) : tst f64 P :=
  MkTS l r sw (c_init c) (a_q ieee (-1) 1) (a_q ieee 10000000000 1)
       (a_sub ieee (c_init c) (snd prev)) (if first then c_nom c else c0 ieee) prev.
Lemma start_inv : forall (l r : tfoot f64 P) (sw first : bool) (prev : P * f64), last_opt (if sw then r else l) = Some prev -> key (c_init c) < key (c_end c) ->
  (snd prev = fnan \/ (number (snd prev) /\ 0 <= key (snd prev) /\ key (snd prev) <= key (c_init c))) ->
  inv P c (start_state l r sw first prev).
Proof.
  intros l r sw first prev E L Q. constructor; simpl.
  - apply fin_number; auto.
  - lra.
  - exact E.
  - destruct Q as [Q|(Q1 & Q2 & Q3)]; auto. right. repeat split; auto. lra.
  - left. reflexivity.
  - destruct first; auto.
Qed.
Lemma horizon : a_le ieee (c_end c) (c_init c) = false -> key (c_init c) < key (c_end c).
Proof. intros H. apply ble_false; auto using fin_number. Qed.

Lemma plan_ends : forall left right : tfoot f64 P, stored left -> stored right ->
  exists n0, forall n, (n0 <= n)%nat -> t_plan ieee c o n left right <> TFuel.
Proof.
  intros left right SL SR. unfold t_plan. destruct (negb (o_checks o)); [exists O; discriminate|].
  destruct (t_feet ieee c o left right) as [[[[l r] sw] first]|] eqn:F; [|exists O; discriminate].
  destruct (a_le ieee (c_end c) (c_init c)) eqn:L; [exists O; discriminate|]. apply horizon in L. destruct (negb (o_integ o)); [exists O; discriminate|].
  unfold t_search. destruct (last_opt (if sw then r else l)) as [prev|] eqn:E; [|exists O; discriminate].
  destruct (feet_ok P c o Fi left right l r sw first prev SL SR F E) as (_ & Hi & Q & _).
  pose proof (start_inv l r sw first prev E L Q) as I. unfold start_state in I.
  destruct (run_ends P c o Fi Fe Hi L Hadv _ I) as (n0 & R). exists n0. intros n H. specialize (R n H).
  destruct (t_run ieee c o n _) as [s| |]; [| |congruence]; [|discriminate].
  destruct (if c_addTerm c then _ else _) as [[l1 r1]| |]; try discriminate.
  destruct (Nat.eqb (length l) (length l1) && Nat.eqb (length r) (length r1)); [|discriminate].
  destruct (t_sync ieee c o l1 r1) as [[[l2 r2] sl]| |]; discriminate.
Qed.

Lemma dealt_app : forall X sw (a b : list X), dealt sw (a ++ b) =
  (fst (dealt sw a) ++ fst (dealt (turn sw a) b), snd (dealt sw a) ++ snd (dealt (turn sw a) b)).
Proof.
  intros X sw a b. revert sw. induction a as [|x a IH]; intros sw; [simpl; apply surjective_pairing|].
  rewrite <- app_comm_cons, !dealt_cons, IH. destruct sw; reflexivity.
Qed.
Lemma grown_app : forall (l r l1 r1 l2 r2 : tfoot f64 P) sw a b, grown l r sw a l1 r1 -> grown l1 r1 (turn sw a) b l2 r2 ->
  grown l r sw (a ++ b) l2 r2.
Proof.
  intros l r l1 r1 l2 r2 sw a b (A1 & A2) (B1 & B2). unfold grown. rewrite dealt_app. simpl. rewrite B1, B2, A1, A2, !app_assoc. auto.
Qed.
Lemma dealt_length : forall X sw (a : list X), (length (fst (dealt sw a)) + length (snd (dealt sw a)) = length a)%nat.
Proof.
  intros X sw a. revert sw. induction a as [|x a IH]; intros sw; auto. rewrite dealt_cons. specialize (IH (negb sw)).
  destruct sw; simpl in *; lia.
Qed.
Lemma consecutive_imp : forall X (Q1 Q2 : X -> X -> Prop) l a, (forall x y, Q1 x y -> Q2 x y) -> consecutive Q1 a l -> consecutive Q2 a l.
Proof. intros X Q1 Q2 l. induction l as [|b l IH]; intros a H; simpl; auto. intros (A & B). auto. Qed.

Lemma blt_irr : forall x : f64, Bltb x x = false.
Proof. intros x. destruct (nan_or x) as [->|N]; auto. rewrite blt_key by auto. rcases; auto; lra. Qed.
Lemma removelast_len : forall X (l : list X) x y, last_opt l = Some y -> length (removelast l ++ [x]) = length l.
Proof.
  intros X l x y H. rewrite app_length. simpl. induction l as [|z l IH]; [discriminate|]. simpl in *. destruct l; auto. simpl in *. rewrite IH; auto.
Qed.
Lemma removelast_snoc : forall X (l : list X) x, removelast (l ++ [x]) = l.
Proof. intros. apply removelast_last. Qed.
Lemma lt_not_neg : forall x y : f64, Bltb x y = true -> Bltb x fzero = false -> Bltb y fzero = false.
Proof.
  intros x y H Q. destruct (lt64_number _ _ H) as (N1 & N2). apply lt64_inv in H. apply blt_false in Q; auto; [|discriminate].
  rewrite blt_key; auto; [|discriminate]. rcases; auto; lra.
Qed.
Lemma sync_ok : forall (l r l' r' : tfoot f64 P) sl, stored l -> stored r -> t_sync ieee c o l r = Ok (l', r', sl) -> aligned l r l' r'.
Proof.
  intros l r l' r' sl SL SR H. unfold t_sync in H.
  destruct (last_opt l) as [[p tl]|] eqn:EL; [|discriminate]. destruct (last_opt r) as [[q tr]|] eqn:ER; [|discriminate].
  pose proof (SL _ (last_in _ _ _ EL)) as BL. pose proof (SR _ (last_in _ _ _ ER)) as BR. simpl in BL, BR.
  unfold t_add, below0 in H. rewrite c0_zero in H. change (a_lt ieee tl fzero) with (Bltb tl fzero) in H. change (a_lt ieee tr fzero) with (Bltb tr fzero) in H.
  rewrite BL, BR in H. unfold aligned.
  assert (AS : Bltb tr tl = true -> Bltb tl tr = false).
  { intros Q. destruct (lt64_number _ _ Q). apply lt64_inv in Q. rewrite blt_key by auto. rcases; auto; lra. }
  change (a_lt ieee tr tl) with (Bltb tr tl) in H. change (a_lt ieee tl tr) with (Bltb tl tr) in H.
  destruct (Bltb tr tl) eqn:C1; [|destruct (Bltb tl tr) eqn:C2]; inversion H; subst l' r'.
  - rewrite (removelast_len _ _ _ _ ER), removelast_snoc. repeat (split; [solve [auto]|]). exists (p, tl), (q, tr), (p, tl), (o_again o false q, tl).
    rewrite last_opt_app. simpl. rewrite C1, AS by auto. repeat split; auto.
  - rewrite (removelast_len _ _ _ _ EL), removelast_snoc. repeat (split; [solve [auto]|]). exists (p, tl), (q, tr), (o_again o true p, tr), (q, tr).
    rewrite last_opt_app. simpl. rewrite C1, C2. repeat split; auto.
  - repeat (split; [solve [auto]|]). exists (p, tl), (q, tr), (p, tl), (q, tr). simpl. rewrite C1, C2. repeat split; auto.
Qed.

Lemma plan_steps : forall n (left right l' r' : tfoot f64 P) sw' sl, times_ok left -> times_ok right ->
  t_plan ieee c o n left right = TDone l' r' sw' sl -> exists (l r : tfoot f64 P) (sw : bool) (prev : P * f64) (a b : tfoot f64 P),
  started c o left right l r /\
  last_opt (if sw then r else l) = Some prev /\ le64 (snd prev) (c_init c) /\
  (forall x, last_opt (if sw then l else r) = Some x -> le64 (snd x) (snd prev)) /\
  consecutive (follows c) (snd prev) (map snd a) /\
  terminal_at c (snd (last a prev)) (map snd b) /\ (c_addTerm c = false -> b = []) /\
  (fin (fadd (c_end c) (c_nom c)) = true -> advances (c_nom c) (c_init c) (fadd (c_end c) (c_nom c)) ->
   consecutive lt64 (snd (last a prev)) (map snd b)) /\
  sw' = turn sw a /\
  (a ++ b <> [] -> grown l r sw (a ++ b) l' r') /\ (a ++ b = [] -> aligned l r l' r').
Proof.
  intros n left right l' r' sw' sl TL TR H. pose proof (times_stored _ _ TL) as SL. pose proof (times_stored _ _ TR) as SR.
  unfold t_plan in H. destruct (negb (o_checks o)); [discriminate|].
  destruct (t_feet ieee c o left right) as [[[[l r] sw] first]|] eqn:F; [|discriminate].
  destruct (a_le ieee (c_end c) (c_init c)) eqn:L; [discriminate|]. apply horizon in L. destruct (negb (o_integ o)); [discriminate|].
  unfold t_search in H. destruct (last_opt (if sw then r else l)) as [prev|] eqn:E; [|discriminate].
  destruct (feet_ok P c o Fi left right l r sw first prev SL SR F E) as (ST & Hi & Q & QS).
  pose proof (start_inv l r sw first prev E L Q) as I. unfold start_state in I. pose proof (fin_number _ Fi) as Ni.
  assert (TO : times_ok l /\ times_ok r).
  { unfold started in ST. assert (le64 fzero (c_init c)) by (apply le64_key; auto; discriminate).
    destruct left; [destruct right|]; destruct ST; subst l r; auto; split; intros x [X|[]]; subst x; auto. }
  destruct TO as (TOl & TOr).
  assert (NP : number (snd prev)).
  { destruct sw; apply last_in in E; [destruct (le64_number _ _ (TOr _ E))|destruct (le64_number _ _ (TOl _ E))]; auto. }
  destruct Q as [Q|(_ & Q1 & Q2)]; [contradiction|].
  destruct (t_run ieee c o n _) as [s| |] eqn:RUN; try discriminate.
  destruct (run_steps P c o Fi Fe Hi L Hadv _ _ _ I RUN) as (a & G1 & G2 & G3 & G4 & G5). simpl in G1, G2, G3, G4.
  assert (TERM : exists b l1 r1, (if c_addTerm c then t_terminal ieee c o (t_sw s) (t_left s) (t_right s) else Ok (t_left s, t_right s)) = Ok (l1, r1) /\
    grown (t_left s) (t_right s) (t_sw s) b l1 r1 /\ terminal_at c (snd (last a prev)) (map snd b) /\ (c_addTerm c = false -> b = []) /\
    (fin (fadd (c_end c) (c_nom c)) = true -> advances (c_nom c) (c_init c) (fadd (c_end c) (c_nom c)) ->
     consecutive lt64 (snd (last a prev)) (map snd b))).
  { destruct (c_addTerm c) eqn:AT.
    - destruct (t_terminal ieee c o (t_sw s) (t_left s) (t_right s)) as [[l1 r1]| |] eqn:TT; try discriminate.
      pose proof (i_prev _ _ s G5) as IP. unfold t_stance in IP.
      destruct (terminal_steps P c o _ _ _ _ _ _ IP TT) as (b & B1 & B2). exists b, l1, r1. split; auto. split; auto.
      rewrite G4 in B2. cbv zeta in B2.
      split; [|split; [discriminate|]].
      + exact B2.
      + intros Fn Ha.
        assert (NL : number (snd (last a prev)) /\ 0 <= key (snd (last a prev)) /\ key (snd (last a prev)) <= key (c_end c)).
        { destruct (i_old _ _ s G5) as [X|(X1 & X2 & X3 & _)]; [|rewrite G4 in *; auto]. exfalso. rewrite G4 in X.
          clear - G3 X NP. revert prev NP G3 X. induction a as [|y a IH]; intros prev NP G3 X; [exact (NP X)|].
          destruct G3 as (C1 & C2). rewrite <- (last_cons _ a y prev) in X. apply (IH y); auto. destruct C1 as (_ & C1 & _). exact C1. }
        destruct NL as (N1 & N2 & N3).
        destruct (terminal_times c Fi Fe Hi L Fn Hn Ha _ N1 N2 N3) as (T1 & T2).
        destruct B2 as [->|[->| ->]]; simpl; auto.
    - exists [], (t_left s), (t_right s). unfold grown. simpl. rewrite !app_nil_r. repeat split; auto. left; reflexivity. }
  destruct TERM as (b & l1 & r1 & T1 & T2 & T3 & T4 & T5). rewrite T1 in H.
  assert (G : grown l r sw (a ++ b) l1 r1) by (apply grown_app with (t_left s) (t_right s); auto; rewrite <- G2; auto).
  exists l, r, sw, prev, a, b. split; auto. split; auto. split; [apply le64_key; auto|]. split.
  { intros x X. assert (Nx : number (snd x)).
    { destruct sw; apply last_in in X; [destruct (le64_number _ _ (TOl _ X))|destruct (le64_number _ _ (TOr _ X))]; auto. }
    apply le64_key; auto. }
  split.
  { apply consecutive_imp with (2 := G3). intros x y (P1 & P2 & P3 & P4 & P5 & P6).
    repeat split; auto; try (apply lt64_key; auto); try (apply le64_key; auto using fin_number). }
  split; auto. split; auto. split; auto.
  destruct G as (GL & GR). pose proof (dealt_length _ sw (a ++ b)) as DL.
  destruct (Nat.eqb (length l) (length l1) && Nat.eqb (length r) (length r1)) eqn:EQ.
  - apply andb_true_iff in EQ. destruct EQ as (E1 & E2). apply Nat.eqb_eq in E1. apply Nat.eqb_eq in E2.
    rewrite GL, app_length in E1. rewrite GR, app_length in E2.
    assert (Z : a ++ b = []) by (apply length_zero_iff_nil; lia).
    destruct (t_sync ieee c o l1 r1) as [[[l2 r2] sl2]| |] eqn:SY; try discriminate. inversion H; subst l2 r2 sl2 sw'.
    split; auto. split; [intros X; contradiction|]. intros _. rewrite Z in GL, GR. simpl in GL, GR. rewrite app_nil_r in GL, GR. subst l1 r1.
    apply (sync_ok l r l' r' sl); auto using times_stored.
  - injection H; intros _ X3 X2 X1. rewrite <- X1, <- X2, <- X3. clear X1 X2 X3 H. split; auto. split; [intros _; split; auto|]. intros Z. exfalso. rewrite Z in GL, GR. simpl in GL, GR.
    rewrite app_nil_r in GL, GR. rewrite GL, GR, !Nat.eqb_refl in EQ. discriminate.
Qed.
End Plan.

(** Negative initial times are refused. *)
Lemma plan_negative : forall P (c : tcfg f64) (o : geo f64 P) n left right, fin (c_init c) = true -> stored left -> stored right ->
  key (c_init c) < 0 -> t_plan ieee c o n left right = TFail.
Proof.
  intros P c o n left right Fi SL SR K. unfold t_plan. destruct (negb (o_checks o)); auto.
  destruct (t_feet ieee c o left right) as [[[[l r] sw] first]|] eqn:F; auto.
  destruct (a_le ieee (c_end c) (c_init c)); auto. destruct (negb (o_integ o)); auto. unfold t_search.
  destruct (last_opt (if sw then r else l)) as [prev|] eqn:E; auto.
  destruct (feet_ok P c o Fi left right l r sw first prev SL SR F E) as (_ & Hi & _). lra.
Qed.
