(** Foot prints left behind by a planner that fails, in binary64 arithmetic. *)
From Coq Require Import String Reals ZArith List Bool Lia Lra.
From Flocq Require Import Core IEEE754.BinarySingleNaN.
From Verif Require Import Prelude FootPrint Doubles DoublesGen DoublesSpec DoublesProofs TimedPlan TimedPlanSpec TimedPlanProofs2 TimedPlanProofs3 TimedPlanProofs4.
Import ListNotations.
Open Scope R_scope.
Opaque fadd fsub fmul fdiv fmake f1 fm1 fpi.

Section Rest.
Variable P : Type.
Variable c : tcfg f64.
Variable o : geo f64 P.
Hypothesis Fi : fin (c_init c) = true.
Hypothesis Fe : fin (c_end c) = true.
Hypothesis Hn : Bltb (c_nom c) fzero = false.
Hypothesis Hadv : advances (c_dT c) (c_init c) (c_end c).

(** A body that fails has not added a step. *)
Lemma broken_same : forall s, inv P c s -> (forall s', t_body ieee c o s <> Ok s') -> t_broken ieee c o s = s.
Proof.
  intros s I H. unfold t_broken. unfold t_body in H. destruct (a_lt ieee (c_max c) _ || a_eq ieee (t_t s) (c_end c)) eqn:D; [|reflexivity].
  destruct (a_le ieee (c_min c) _ && a_lt ieee _ (t_t s)); [|exfalso; eapply H; reflexivity].
  destruct (negb (o_tiny o _ _ _ _)); [|exfalso; eapply H; reflexivity].
  destruct (if a_lt ieee (c0 ieee) (t_opt s) then t_best ieee o s else t_parallel ieee o s) as [s1| |] eqn:E; [|reflexivity|reflexivity].
  exfalso. cbn [rbind] in H.
  assert (LE : exists p, last_opt (t_stance s1) = Some p).
  { destruct (a_lt ieee (c0 ieee) (t_opt s)).
    - unfold t_best in E. destruct (o_pose _ _ _ _ _) as [p|]; [|discriminate].
      destruct (t_step ieee _ _ _ p _) as [[l r]|] eqn:SE; [|discriminate]. injection E as <-. apply step_last in SE. unfold t_stance. cbn.
      destruct (t_sw s); eauto.
    - unfold t_parallel in E. destruct (o_still _ _ _ _ _) as [tiny|]; [|discriminate]. destruct (negb tiny).
      + destruct (o_par _ _ _ _) as [p|]; [|discriminate].
        destruct (t_step ieee _ _ _ p _) as [[l r]|] eqn:SE; [|discriminate]. injection E as <-. apply step_last in SE. unfold t_stance. cbn.
        destruct (t_sw s); eauto.
      + injection E as <-. exists (t_prev s). apply (i_prev P c s I). }
  destruct LE as (p & LE). unfold t_refresh in H. rewrite LE in H. eapply H; reflexivity.
Qed.

Lemma halt_run : forall n s s', t_run ieee c o n s = TLDone s' -> t_halt ieee c o n s = s'.
Proof.
  induction n as [|n IH]; intros s s' H; simpl in *; destruct (Bleb (t_t s) (c_end c)); try discriminate; try (injection H; auto).
  destruct (t_iter ieee c o s); try discriminate. auto.
Qed.
Hypothesis Hi : 0 <= key (c_init c).
Hypothesis Hie : key (c_init c) < key (c_end c).
Lemma halt_steps : forall n s, inv P c s -> let s' := t_halt ieee c o n s in exists new,
  grown (t_left s) (t_right s) (t_sw s) new (t_left s') (t_right s') /\ t_sw s' = turn (t_sw s) new /\
  consecutive (placeable c) (snd (t_prev s)) (map snd new) /\ t_prev s' = last new (t_prev s) /\ inv P c s'.
Proof.
  assert (Z : forall s, inv P c s -> exists new,
    grown (t_left s) (t_right s) (t_sw s) new (t_left s) (t_right s) /\ t_sw s = turn (t_sw s) new /\
    consecutive (placeable c) (snd (t_prev s)) (map snd new) /\ t_prev s = last new (t_prev s) /\ inv P c s).
  { intros s I. exists []. unfold grown. simpl. rewrite !app_nil_r. auto 10. }
  induction n as [|n IH]; intros s I; simpl; destruct (Bleb (t_t s) (c_end c)) eqn:L; auto.
  destruct (t_iter ieee c o s) as [s2| |] eqn:E.
  - destruct (iter_inv P c o Fi Fe Hi Hie Hadv s s2 I L E) as (I' & s1 & _ & Cs & E1 & E2 & E3 & E4 & _).
    destruct (IH _ I') as (new & G1 & G2 & G3 & G4 & G5). rewrite E1, E2, E3 in *. rewrite E4 in *.
    destruct Cs as [(Q1 & Q2 & Q3 & Q4 & _)|(p & t & Q1 & Q2 & Q3 & Q4 & Q5 & _)].
    + rewrite Q1, Q2, Q3, Q4 in *. exists new. auto.
    + rewrite Q2, Q3 in *. exists ((p, t) :: new). split; [apply (grown_cons _ _ _ _ _ _ _ _ _ _ _ Q1 G1)|].
      split; [exact G2|]. split; [split; [exact Q5|exact G3]|]. split; auto.
      rewrite G4. apply last_cons.
  - rewrite broken_same; auto. intros s' B. unfold t_iter in E. rewrite B in E. discriminate.
  - rewrite broken_same; auto. intros s' B. unfold t_iter in E. rewrite B in E. discriminate.
Qed.

(** The feet after addTerminalStep if it fails: at most the first terminal step. *)
Lemma torn_steps : forall (sw : bool) (l r : tfoot f64 P) (prev : P * f64), last_opt (if sw then r else l) = Some prev ->
  (forall x, t_terminal ieee c o sw l r <> Ok x) -> exists new, grown l r sw new (fst (t_torn ieee c o sw l r)) (snd (t_torn ieee c o sw l r)) /\
  let a := fadd (c_init c) (c_nom c) in let b := fadd (snd prev) (c_nom c) in let t := if Bltb a b then b else a in
  map snd new = [] \/ map snd new = [t].
Proof.
  intros sw l r prev E H. unfold t_torn. rewrite E.
  assert (G0 : forall sw2 (l2 r2 : tfoot f64 P), grown l2 r2 sw2 [] l2 r2) by (intros; unfold grown; simpl; rewrite !app_nil_r; auto).
  set (t := if a_lt ieee _ _ then _ else _).
  assert (K : exists new, let y := match o_term o sw l r prev (a_sub ieee t (snd prev)), o_pose o sw l r (c_end c) with
      | Some true, Some p => match t_step ieee sw l r p t with Some x => x | None => (l, r) end
      | _, _ => (l, r) end in grown l r sw new (fst y) (snd y) /\ (map snd new = [] \/ map snd new = [t])).
  { destruct (o_term o sw l r prev _) as [[|]|]; try (exists []; split; [apply G0|left; reflexivity]).
    destruct (o_pose o sw l r _) as [p|]; try (exists []; split; [apply G0|left; reflexivity]).
    destruct (t_step ieee sw l r p t) as [[l1 r1]|] eqn:S1; [|exists []; split; [apply G0|left; reflexivity]].
    exists [(p, t)]. split; [eapply grown_cons; [exact S1|apply G0]|right; reflexivity]. }
  destruct (t_terminal ieee c o sw l r) as [x| |]; [exfalso; eapply H; reflexivity|exact K|exact K].
Qed.
End Rest.

Lemma feet_none : forall P (c : tcfg f64) (o : geo f64 P) left right l r sw first, t_feet ieee c o left right = Some (l, r, sw, first) ->
  last_opt (if sw then r else l) = None -> l = left /\ r = right.
Proof.
  intros P c o left right l r sw first F E. unfold t_feet in F.
  assert (CK : forall (b : bool) (x y : tfoot f64 P * tfoot f64 P * bool * bool), (if b then None else Some x) = Some y -> x = y) by (intros [|] x y Q; congruence).
  destruct (last_opt left) as [a|] eqn:LL; destruct (last_opt right) as [b|] eqn:LR.
  - destruct (a_eq ieee (snd a) (snd b)); [|destruct (a_lt ieee (snd a) (snd b))]; apply CK in F; inversion F; auto.
  - apply CK in F; inversion F; auto.
  - apply CK in F; inversion F; auto.
  - destruct (o_point o); [|discriminate]. injection F as <- <- _ _. unfold t_keep, t_add in *. destruct (below0 ieee (c_init c)); [auto|].
    destruct sw; rewrite last_opt_app in E; discriminate.
Qed.

(** All that a computeNewSteps that returns false leaves behind: the foot prints it was given, or those with a part of a plan. *)
Lemma rest_steps : forall P (c : tcfg f64) (o : geo f64 P), fin (c_init c) = true -> fin (c_end c) = true -> Bltb (c_nom c) fzero = false ->
  advances (c_dT c) (c_init c) (c_end c) -> forall n (left right : tfoot f64 P), times_ok left -> times_ok right ->
  t_plan ieee c o n left right = TFail \/ t_plan ieee c o n left right = TFuel ->
  let l' := fst (t_rest ieee c o n left right) in let r' := snd (t_rest ieee c o n left right) in
  (l' = left /\ r' = right) \/ exists (l r : tfoot f64 P) (sw : bool) (prev : P * f64) (a b : tfoot f64 P),
  started c o left right l r /\ 0 <= key (c_init c) /\
  last_opt (if sw then r else l) = Some prev /\ le64 (snd prev) (c_init c) /\
  (forall x, last_opt (if sw then l else r) = Some x -> le64 (snd x) (snd prev)) /\
  consecutive (follows c) (snd prev) (map snd a) /\
  terminal_at c (snd (last a prev)) (map snd b) /\ (length b <= 1)%nat /\ (b = [] \/ le64 (snd (last a prev)) (c_end c)) /\
  grown l r sw (a ++ b) l' r'.
Proof.
  intros P c o Fi Fe Hn Hadv n left right TL TR H. pose proof (times_stored _ _ TL) as SL. pose proof (times_stored _ _ TR) as SR.
  unfold t_rest. unfold t_plan in H. destruct (negb (o_checks o)); [left; split; reflexivity|].
  destruct (t_feet ieee c o left right) as [[[[l r] sw] first]|] eqn:F; [|left; split; reflexivity].
  destruct (last_opt (if sw then r else l)) as [prev|] eqn:E.
  2:{ cbn [fst snd]. left. eapply feet_none; eauto. }
  destruct (feet_ok P c o Fi left right l r sw first prev SL SR F E) as (ST & Hi & Q & QS). pose proof (fin_number _ Fi) as Ni. pose proof (fin_number _ Fe) as Ne.
  assert (TO : times_ok l /\ times_ok r).
  { unfold started in ST. assert (le64 fzero (c_init c)) by (apply le64_key; auto; discriminate).
    destruct left; [destruct right|]; destruct ST; subst l r; auto; split; intros x [X|[]]; subst x; auto. }
  destruct TO as (TOl & TOr).
  assert (NP : number (snd prev)).
  { destruct sw; apply last_in in E; [destruct (le64_number _ _ (TOr _ E))|destruct (le64_number _ _ (TOl _ E))]; auto. }
  destruct Q as [Q|(_ & Q1 & Q2)]; [contradiction|].
  assert (QL : forall x, last_opt (if sw then l else r) = Some x -> le64 (snd x) (snd prev)).
  { intros x X. assert (Nx : number (snd x)).
    { destruct sw; apply last_in in X; [destruct (le64_number _ _ (TOl _ X))|destruct (le64_number _ _ (TOr _ X))]; auto. }
    apply le64_key; auto. }
  assert (G0 : forall sw2 (l2 r2 : tfoot f64 P), grown l2 r2 sw2 [] l2 r2) by (intros; unfold grown; simpl; rewrite !app_nil_r; auto).
  right. exists l, r, sw, prev.
  assert (NONE : exists a b : tfoot f64 P, started c o left right l r /\ 0 <= key (c_init c) /\ last_opt (if sw then r else l) = Some prev /\ le64 (snd prev) (c_init c) /\
    (forall x, last_opt (if sw then l else r) = Some x -> le64 (snd x) (snd prev)) /\
    consecutive (follows c) (snd prev) (map snd a) /\ terminal_at c (snd (last a prev)) (map snd b) /\ (length b <= 1)%nat /\ (b = [] \/ le64 (snd (last a prev)) (c_end c)) /\
    grown l r sw (a ++ b) l r).
  { exists [], []. split; auto. split; auto. split; auto. split; [apply le64_key; auto|]. split; auto. split; [exact Logic.I|]. split; [left; reflexivity|]. split; [simpl; lia|]. split; [left; auto|apply G0]. }
  destruct (a_le ieee (c_end c) (c_init c)) eqn:L; cbn [orb]; [exact NONE|].
  destruct (negb (o_integ o)); [exact NONE|]. clear NONE. apply horizon in L; auto.
  unfold t_search in H. rewrite E in H.
  pose proof (start_inv P c Fi Hn l r sw first prev E L) as I. unfold start_state in I. specialize (I (or_intror (conj NP (conj Q1 Q2)))).
  set (s0 := MkTS l r sw _ _ _ _ _ _) in *.
  destruct (halt_steps P c o Fi Fe Hadv Hi L n s0 I) as (a & G1 & G2 & G3 & G4 & G5). cbn [s0 t_left t_right t_sw t_prev] in G1, G2, G3, G4.
  assert (FO : consecutive (follows c) (snd prev) (map snd a)).
  { apply consecutive_imp with (2 := G3). intros x y (P1 & P2 & P3 & P4 & P5 & P6).
    repeat split; auto; try (apply lt64_key; auto); try (apply le64_key; auto using fin_number). }
  assert (HALT : exists a b : tfoot f64 P, started c o left right l r /\ 0 <= key (c_init c) /\ last_opt (if sw then r else l) = Some prev /\ le64 (snd prev) (c_init c) /\
    (forall x, last_opt (if sw then l else r) = Some x -> le64 (snd x) (snd prev)) /\
    consecutive (follows c) (snd prev) (map snd a) /\ terminal_at c (snd (last a prev)) (map snd b) /\ (length b <= 1)%nat /\ (b = [] \/ le64 (snd (last a prev)) (c_end c)) /\
    grown l r sw (a ++ b) (t_left (t_halt ieee c o n s0)) (t_right (t_halt ieee c o n s0))).
  { exists a, []. split; auto. split; auto. split; auto. split; [apply le64_key; auto|]. split; auto. split; auto. split; [left; reflexivity|]. split; [simpl; lia|]. split; [left; auto|].
    rewrite app_nil_r. exact G1. }
  destruct (t_run ieee c o n s0) as [s| |] eqn:RUN; [|exact HALT|exact HALT].
  apply halt_run in RUN. rewrite RUN in *. destruct (c_addTerm c); [|exact HALT]. clear HALT.
  pose proof (i_prev _ _ s G5) as IP. unfold t_stance in IP.
  destruct (torn_steps P c o (t_sw s) (t_left s) (t_right s) (t_prev s) IP) as (b & B1 & B2).
  { intros (l1 & r1) X. rewrite X in H. destruct (Nat.eqb _ _ && Nat.eqb _ _); [|destruct H; discriminate].
    unfold t_sync in H. destruct (last_opt l1) as [[p tl]|]; [|destruct H; discriminate]. destruct (last_opt r1) as [[q tr]|]; [|destruct H; discriminate].
    destruct (a_lt ieee tr tl); [destruct H; discriminate|]. destruct (a_lt ieee tl tr); destruct H; discriminate. }
  assert (NL : le64 (snd (last a prev)) (c_end c)).
  { rewrite <- G4. destruct (i_old _ _ s G5) as [X|(X1 & X2 & X3 & _)]; [|apply le64_key; auto]. exfalso. rewrite G4 in X.
    clear - G3 X NP. revert prev NP G3 X. induction a as [|y a IH]; intros prev NP G3 X; [exact (NP X)|].
    destruct G3 as (C1 & C2). rewrite <- (last_cons _ a y prev) in X. apply (IH y); auto. destruct C1 as (_ & C1 & _). exact C1. }
  exists a, b. split; auto. split; auto. split; auto. split; [apply le64_key; auto|]. split; auto. split; auto. rewrite G4 in B2. cbv zeta in B2.
  split; [unfold terminal_at; tauto|]. split; [destruct b as [|? [|? ?]]; simpl; try lia; destruct B2 as [B2|B2]; discriminate|]. split; [right; exact NL|].
  apply grown_app with (t_left s) (t_right s); auto. rewrite <- G2. exact B1.
Qed.

(** In particular all impact times are numbers not below zero. *)
Lemma grown_times : forall P sw (new l r l' r' : list (P * f64)), grown l r sw new l' r' -> times_ok l -> times_ok r ->
  (forall x, In x new -> le64 fzero (snd x)) -> times_ok l' /\ times_ok r'.
Proof.
  intros P sw new l r l' r' (-> & ->) TL TR N.
  assert (D : forall sw (z : list (P * f64)) x, In x (fst (dealt sw z)) \/ In x (snd (dealt sw z)) -> In x z).
  { intros b z. revert b. induction z as [|y z IH]; intros b x H; [destruct H as [[]|[]]|]. rewrite dealt_cons in H.
    destruct b; cbn in H; destruct H as [H|H]; try (destruct H as [H|H]; [left; auto|]); right; eapply IH; eauto. }
  split; intros x H; apply in_app_or in H; destruct H as [H|H]; auto; apply N; eapply D; eauto.
Qed.

Lemma last_member : forall X (l : list X) y, In (last l y) (y :: l).
Proof. intros X l. induction l as [|z l IH]; intros y; [left; reflexivity|]. rewrite <- (last_cons _ l z y). right. apply IH. Qed.
Lemma rest_negative : forall P (c : tcfg f64) (o : geo f64 P) n left right, fin (c_init c) = true -> stored left -> stored right ->
  key (c_init c) < 0 -> t_rest ieee c o n left right = (left, right).
Proof.
  intros P c o n left right Fi SL SR K. unfold t_rest. destruct (negb (o_checks o)); auto.
  destruct (t_feet ieee c o left right) as [[[[l r] sw] first]|] eqn:F; auto.
  destruct (last_opt (if sw then r else l)) as [prev|] eqn:E.
  - destruct (feet_ok P c o Fi left right l r sw first prev SL SR F E) as (_ & Hi & _). lra.
  - destruct (feet_none P c o left right l r sw first F E) as (-> & ->). reflexivity.
Qed.
Lemma rest_times : forall P (c : tcfg f64) (o : geo f64 P), fin (c_init c) = true -> fin (c_end c) = true -> Bltb (c_nom c) fzero = false -> number (c_nom c) ->
  advances (c_dT c) (c_init c) (c_end c) -> forall n (left right : tfoot f64 P), times_ok left -> times_ok right ->
  t_plan ieee c o n left right = TFail \/ t_plan ieee c o n left right = TFuel ->
  times_ok (fst (t_rest ieee c o n left right)) /\ times_ok (snd (t_rest ieee c o n left right)).
Proof.
  intros P c o Fi Fe Hn Nn Hadv n left right TL TR H.
  destruct (rest_steps P c o Fi Fe Hn Hadv n left right TL TR H) as [(-> & ->)|(l & r & sw & prev & a & b & ST & Hi & E & LP & _ & FO & TE & LB & NL & G)]; auto.
  pose proof (fin_number _ Fi) as Ni. destruct (not_neg _ Hn) as [X|(_ & Kn)]; [contradiction|].
  assert (Z : le64 fzero (c_init c)) by (apply le64_key; auto; discriminate).
  assert (TO : times_ok l /\ times_ok r).
  { unfold started in ST. destruct left; [destruct right|]; destruct ST; subst l r; auto; split; intros x [X|[]]; subst x; auto. }
  destruct TO as (TOl & TOr).
  assert (FA : forall x, In x a -> le64 fzero (snd x)).
  { clear - FO Hi. revert prev FO. induction a as [|y a IH]; intros prev FO x I; [destruct I|]. destruct FO as ((_ & F2 & _) & F4).
    destruct I as [<-|I]; [|eapply IH; eauto]. destruct (lt64_number _ _ F2). apply lt64_inv in F2. apply le64_key; auto; [discriminate|]. change (key fzero) with 0. lra. }
  eapply grown_times; eauto. intros x I. apply in_app_or in I. destruct I as [I|I]; auto.
  destruct NL as [->|NL]; [destruct I|].
  assert (LA : le64 fzero (snd (last a prev))).
  { destruct a as [|y a]; [cbn [last]; destruct sw; apply last_in in E; auto|]. apply FA. rewrite <- (last_cons _ a y prev). apply last_member. }
  destruct (le64_number _ _ NL) as (N1 & _). apply le64_inv in NL. apply le64_inv in LA.
  assert (FL : fin (snd (last a prev)) = true) by (apply key_number_fin with fzero (c_end c); auto).
  destruct (fadd_up _ (c_nom c) Fi Nn Kn) as (A1 & A2 & _). destruct (fadd_up _ (c_nom c) FL Nn Kn) as (B1 & B2 & _).
  change (key fzero) with 0 in LA. unfold terminal_at in TE. cbv zeta in TE.
  set (t := if Bltb _ _ then _ else _) in TE. assert (T : le64 fzero t).
  { unfold t. match goal with |- context [if ?b then _ else _] => destruct b end; apply le64_key; auto; try discriminate; change (key fzero) with 0; lra. }
  destruct b as [|y [|? ?]]; [destruct I| |simpl in LB; lia]. destruct I as [<-|[]]. cbn [map] in TE. destruct TE as [TE|[TE|TE]]; try discriminate. injection TE as ->. exact T.
Qed.
