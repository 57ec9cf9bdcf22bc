(** Lemmas on the locking: discipline of the methods, absence of deadlock, absence of races. *)
From Coq Require Import List Bool Arith Lia Wf_nat.
From Verif Require Import Threads ThreadsSpec.
Import ListNotations.

Lemma mutex_eqb_eq : forall a b, mutex_eqb a b = true <-> a = b.
Proof. destruct a, b; cbn; split; congruence. Qed.
Lemma mutex_eqb_refl : forall a, mutex_eqb a a = true.
Proof. destruct a; reflexivity. Qed.
Lemma mutex_eqb_neq : forall a b, a <> b -> mutex_eqb a b = false.
Proof. destruct a, b; cbn; congruence. Qed.
Lemma mutex_dec : forall a b : mutex, {a = b} + {a <> b}.
Proof. decide equality. Qed.

Lemma set_nth_same : forall (A : Type) i (x y : A) l, nth_error l i = Some y -> nth_error (set_nth i x l) i = Some x.
Proof. induction i; destruct l; cbn; intros H; try discriminate; eauto. Qed.
Lemma set_nth_other : forall (A : Type) i j (x : A) l, i <> j -> nth_error (set_nth i x l) j = nth_error l j.
Proof. induction i; destruct l, j; cbn; intros H; try congruence; try reflexivity; apply IHi; congruence. Qed.
Lemma set_nth_length : forall (A : Type) i (x : A) l, length (set_nth i x l) = length l.
Proof. induction i; destruct l; cbn; auto. Qed.

(** Lock order: generator, planner, plug-ins. *)
Definition rank (m : mutex) : nat := match m with MGen => 0 | MPlan => 1 | _ => 2 end.

(** Bodies that acquire mutexes in increasing order. *)
Fixpoint ordered_stmt (h : list mutex) (s : stmt) : bool :=
  match s with
  | Hold m b =>
      forallb (fun x => rank x <? rank m) h &&
      (fix all (l : list stmt) : bool := match l with [] => true | s :: r => ordered_stmt (m :: h) s && all r end) b
  | _ => true
  end.
Definition ordered (h : list mutex) (b : list stmt) : bool := forallb (ordered_stmt h) b.
Lemma ordered_hold : forall h m b, ordered_stmt h (Hold m b) = forallb (fun x => rank x <? rank m) h && ordered (m :: h) b.
Proof.
  reflexivity.
Qed.
Lemma body_ordered : forall a, ordered [] (body a) = true.
Proof. destruct a; reflexivity. Qed.

(** [disc h t]: with the mutexes [h] held (latest first), the actions [t] acquire mutexes in increasing order, release the
    latest one and end with none. *)
Inductive disc : list mutex -> list act -> Prop :=
| disc_end : disc [] []
| disc_rd : forall h c t, disc h t -> disc h (ARd c :: t)
| disc_wr : forall h c t, disc h t -> disc h (AWr c :: t)
| disc_lock : forall h m t, (forall x, In x h -> rank x < rank m) -> disc (m :: h) t -> disc h (ALock m :: t)
| disc_unlock : forall h m t, disc h t -> disc (m :: h) (AUnlock m :: t).

Lemma runs_disc : forall b t, runs b t -> forall h, ordered h b = true -> forall u, disc h u -> disc h (t ++ u).
Proof.
  induction 1 as [b|s b t H IH|c b t H IH|c b t H IH|m b b' t t' H IH H' IH']; intros h O u D; cbn [app].
  - exact D.
  - cbn in O. apply andb_prop in O. destruct O as [_ O]. apply IH; assumption.
  - constructor. cbn in O. apply IH; assumption.
  - constructor. cbn in O. apply IH; assumption.
  - unfold ordered in O. cbn [forallb] in O. apply andb_prop in O. destruct O as [O1 O2].
    rewrite ordered_hold in O1. apply andb_prop in O1. destruct O1 as [O1 O3].
    constructor.
    + intros x I. rewrite forallb_forall in O1. apply Nat.ltb_lt, O1, I.
    + rewrite <- app_assoc. cbn [app]. apply IH; [exact O3|]. constructor. apply IH'; assumption.
Qed.
Lemma thread_disc : forall p t, thread_of p t -> disc [] t.
Proof.
  induction 1 as [|a p t u H H' IH]; [constructor|].
  apply (runs_disc _ _ H); [apply body_ordered|exact IH].
Qed.

(** The mutexes held by every thread. *)
Record inv (s : sys) (hs : list (list mutex)) : Prop := {
  inv_len : length hs = length (todo s);
  inv_disc : forall i h t, nth_error hs i = Some h -> nth_error (todo s) i = Some t -> disc h t;
  inv_own : forall m i, owner s m = Some i <-> exists h, nth_error hs i = Some h /\ In m h
}.

Lemma disc_nodup : forall h t, disc h t -> forall m, In m h -> t <> [].
Proof. intros h t D m I E. subst. inversion D; subst; destruct I. Qed.

(** The stack of a thread after an action. *)
Definition stack_after (h : list mutex) (a : act) : list mutex :=
  match a with ALock m => m :: h | AUnlock _ => tl h | _ => h end.

Lemma nodup_held : forall h t, disc h t -> NoDup h -> forall a t', t = a :: t' -> NoDup (stack_after h a).
Proof.
  intros h t D N a t' E. subst t. destruct a; cbn; auto.
  - inversion D; subst. constructor; [|exact N]. intro I. match goal with K : forall x, In x h -> _ |- _ => apply K in I end. lia.
  - inversion D; subst. cbn. inversion N; assumption.
Qed.

Record inv2 (s : sys) (hs : list (list mutex)) : Prop := {
  i2_inv : inv s hs;
  i2_nodup : forall i h, nth_error hs i = Some h -> NoDup h
}.

Lemma begins_inv2 : forall progs s, begins progs s -> inv2 s (map (fun _ => []) (todo s)).
Proof.
  intros progs s [O F]. constructor; [constructor|].
  - apply map_length.
  - intros i h t A B. rewrite nth_error_map, B in A. cbn in A. injection A as <-.
    assert (G : Forall (fun t => disc [] t) (todo s)).
    { clear B O. induction F; constructor; eauto using thread_disc. }
    rewrite Forall_forall in G. apply G. eapply nth_error_In, B.
  - intros m i. rewrite O. split; [discriminate|]. intros (h & A & B).
    rewrite nth_error_map in A. destruct (nth_error (todo s) i); cbn in A; [|discriminate]. injection A as <-. destruct B.
  - intros i h A. rewrite nth_error_map in A. destruct (nth_error (todo s) i); cbn in A; [|discriminate]. injection A as <-. constructor.
Qed.

Lemma nth_len : forall (A B : Type) (l : list A) (k : list B) i x, length l = length k -> nth_error k i = Some x -> exists y, nth_error l i = Some y.
Proof.
  intros A B l k i x E H. assert (L : i < length k) by (apply nth_error_Some; congruence).
  destruct (nth_error l i) eqn:Q; [eauto|]. apply nth_error_None in Q. lia.
Qed.

Lemma move_inv2 : forall i s s' hs, move i s s' -> inv2 s hs ->
  exists h a t, nth_error hs i = Some h /\ nth_error (todo s) i = Some (a :: t) /\ inv2 s' (set_nth i (stack_after h a) hs).
Proof.
  intros i s s' hs M I. destruct M as [o ts a t N E]. destruct I as [[L D W] ND]. cbn in *.
  destruct (nth_len _ _ hs ts i _ L N) as (h & Hh). exists h, a, t. split; [exact Hh|]. split; [exact N|].
  assert (Dh : disc h (a :: t)) by (eapply D; eassumption).
  assert (SA : forall j k, nth_error (set_nth i (stack_after h a) hs) j = Some k ->
               (j = i /\ k = stack_after h a) \/ (j <> i /\ nth_error hs j = Some k)).
  { intros j k A. destruct (Nat.eq_dec i j) as [<-|NE].
    - left. rewrite (set_nth_same _ _ _ h) in A by exact Hh. injection A as <-. auto.
    - right. rewrite set_nth_other in A by exact NE. auto. }
  constructor; [constructor|]; cbn.
  - now rewrite !set_nth_length.
  - intros j k u A B. destruct (SA _ _ A) as [[-> ->]|[NE A']].
    + rewrite (set_nth_same _ _ _ (a :: t)) in B by exact N. injection B as <-.
      destruct a; inversion Dh; subst; cbn; assumption.
    + rewrite set_nth_other in B by congruence. eapply D; eassumption.
  - intros m j. destruct (Nat.eq_dec j i) as [->|NE].
    + rewrite (set_nth_same _ _ _ h) by exact Hh.
      assert (W' : o m = Some i <-> In m h).
      { rewrite W. split; [intros (k & A & B); congruence|eauto]. }
      destruct a as [m'|m'|c|c]; cbn [own_after stack_after enabled] in *.
      * destruct (mutex_dec m m') as [->|Nm].
        -- rewrite mutex_eqb_refl. split; [intros _; exists (m' :: h); cbn; auto|reflexivity].
        -- rewrite (mutex_eqb_neq _ _ Nm), W'. split; [intros I; exists (m' :: h); cbn; auto|].
           intros (k & A & B). injection A as <-. destruct B; [congruence|assumption].
      * inversion Dh; subst. cbn [tl]. assert (NDh := ND _ _ Hh). inversion NDh; subst.
        destruct (mutex_dec m m') as [->|Nm].
        -- rewrite mutex_eqb_refl. split; [discriminate|]. intros (k & A & B). injection A as <-. contradiction.
        -- rewrite (mutex_eqb_neq _ _ Nm), W'. cbn. split; [intros [E'|I]; [congruence|eauto]|].
           intros (k & A & B). injection A as <-. auto.
      * rewrite W'. split; [eauto|intros (k & A & B); congruence].
      * rewrite W'. split; [eauto|intros (k & A & B); congruence].
    + rewrite set_nth_other by congruence.
      destruct a as [m'|m'|c|c]; cbn [own_after enabled] in *; try apply W.
      * destruct (mutex_dec m m') as [->|Nm].
        -- rewrite mutex_eqb_refl. rewrite <- W. split; congruence.
        -- rewrite (mutex_eqb_neq _ _ Nm). apply W.
      * destruct (mutex_dec m m') as [->|Nm].
        -- rewrite mutex_eqb_refl. rewrite <- W. split; congruence.
        -- rewrite (mutex_eqb_neq _ _ Nm). apply W.
  - intros j k A. destruct (SA _ _ A) as [[-> ->]|[NE A']]; [|eapply ND; exact A'].
    eapply nodup_held; [exact Dh|eapply ND; exact Hh|reflexivity].
Qed.

Lemma reach_inv2 : forall s s', reach s s' -> forall hs, inv2 s hs -> exists hs', inv2 s' hs'.
Proof.
  induction 1 as [s|s i s' s'' M R IH]; intros hs I; [eauto|].
  destruct (move_inv2 _ _ _ _ M I) as (h & a & t & _ & _ & I'). eapply IH, I'.
Qed.

Lemma reach_trans : forall a b c, reach a b -> reach b c -> reach a c.
Proof. induction 1; intros; eauto using reach. Qed.

(** Somebody can move. *)
Lemma holder_moves : forall n s hs, inv2 s hs -> forall m i, owner s m = Some i -> 3 - rank m <= n -> exists j s', move j s s'.
Proof.
  induction n as [|n IH]; intros s hs I m i O L.
  - destruct m; cbn in L; lia.
  - destruct I as [[Len D W] ND]. destruct (proj1 (W m i) O) as (h & Hh & Hm).
    destruct (nth_len _ _ (todo s) hs i _ (eq_sym Len) Hh) as (t & Ht).
    assert (Dh := D _ _ _ Hh Ht). destruct t as [|a t]; [destruct (disc_nodup _ _ Dh m Hm); reflexivity|].
    destruct s as [o ts]. cbn in *.
    destruct a as [m'|m'|c|c].
    + destruct (o m') as [j|] eqn:Om.
      * apply (IH (MkSys o ts) hs ltac:(constructor; [constructor; assumption|assumption]) m' j Om).
        inversion Dh; subst. match goal with K : forall x, In x h -> _ |- _ => specialize (K _ Hm) end. destruct m, m'; cbn in *; lia.
      * exists i. eexists. econstructor; [exact Ht|exact Om].
    + exists i. eexists. econstructor; [exact Ht|]. cbn. apply W. inversion Dh; subst. eexists; split; [exact Hh|now left].
    + exists i. eexists. econstructor; [exact Ht|exact Logic.I].
    + exists i. eexists. econstructor; [exact Ht|exact Logic.I].
Qed.

Lemma inv2_progress : forall s hs, inv2 s hs -> all_returned s \/ exists i s', move i s s'.
Proof.
  intros s hs I.
  assert (K : all_returned s \/ exists i a t, nth_error (todo s) i = Some (a :: t)).
  { unfold all_returned. induction (todo s) as [|t l IHl]; [left; constructor|].
    destruct t as [|a t]; [|right; exists 0, a, t; reflexivity].
    destruct IHl as [IHl|(i & a & t & H)]; [left; constructor; auto|right; exists (S i), a, t; exact H]. }
  destruct K as [K|(i & a & t & N)]; [auto|]. right.
  assert (Q : (exists m j, owner s m = Some j) \/ forall m, owner s m = None).
  { destruct (owner s MGen) eqn:O1; [eauto|]. destruct (owner s MPlan) eqn:O2; [eauto|].
    destruct (owner s MSpline) eqn:O3; [eauto|]. destruct (owner s MJerk) eqn:O4; [eauto|].
    destruct (owner s MZmp) eqn:O5; [eauto|]. destruct (owner s MDcm) eqn:O6; [eauto|].
    destruct (owner s MCom) eqn:O7; [eauto|]. right. now destruct m. }
  destruct Q as [(m & j & O)|Q]; [exact (holder_moves _ _ _ I _ _ O (le_n _))|].
  destruct I as [[Len D W] ND]. destruct s as [o ts]. cbn in *.
  destruct (nth_len _ _ hs ts i _ Len N) as (h & Hh). assert (Dh := D _ _ _ Hh N).
  exists i. eexists. econstructor; [exact N|]. destruct a; cbn; auto.
  inversion Dh; subst. apply W. eexists; split; [exact Hh|now left].
Qed.

Definition remaining (s : sys) : nat := fold_right (fun (t : list act) n => length t + n) 0 (todo s).
Lemma remaining_set : forall ts i a t, nth_error ts i = Some (a :: t) ->
  fold_right (fun (t : list act) n => length t + n) 0 ts = S (fold_right (fun (t : list act) n => length t + n) 0 (set_nth i t ts)).
Proof.
  induction ts as [|u ts IH]; intros i a t N; [destruct i; discriminate|].
  destruct i; cbn in N |- *; [injection N as ->; reflexivity|]. rewrite (IH _ _ _ N). lia.
Qed.
Lemma move_remaining : forall i s s', move i s s' -> remaining s = S (remaining s').
Proof. intros i s s' M. destruct M as [o ts a t N E]. unfold remaining. cbn. eapply remaining_set, N. Qed.

(** ** Races *)
(** [locks h t c w hs]: with [h] held, the actions [t] include an access to [c] made while [hs] is held. *)
Inductive does : list mutex -> list act -> cell -> bool -> list mutex -> Prop :=
| does_rd : forall h c t, does h (ARd c :: t) c false h
| does_wr : forall h c t, does h (AWr c :: t) c true h
| does_next : forall h a t c w hs, does (stack_after h a) t c w hs -> does h (a :: t) c w hs.

Lemma runs_does : forall b t, runs b t -> forall h u c w hs, does h (t ++ u) c w hs -> accesses h b c w hs \/ does h u c w hs.
Proof.
  induction 1 as [b|s b t H IH|c0 b t H IH|c0 b t H IH|m b b' t t' H IH H' IH']; intros h u c w hs A; cbn [app] in A.
  - auto.
  - destruct (IH _ _ _ _ _ A); eauto using accesses.
  - inversion A; subst; [left; constructor|]. match goal with K : does _ (t ++ u) _ _ _ |- _ => destruct (IH _ _ _ _ _ K); eauto using accesses end.
  - inversion A; subst; [left; constructor|]. match goal with K : does _ (t ++ u) _ _ _ |- _ => destruct (IH _ _ _ _ _ K); eauto using accesses end.
  - rewrite <- app_assoc in A. cbn [app] in A. inversion A as [| |? ? ? ? ? ? A1]; subst. cbn [stack_after] in A1.
    destruct (IH _ _ _ _ _ A1) as [K|K]; [left; eauto using accesses|].
    inversion K as [| |? ? ? ? ? ? K1]; subst. cbn [stack_after tl] in K1. destruct (IH' _ _ _ _ _ K1); [left; eauto using accesses|auto].
Qed.
Lemma thread_does : forall p t, thread_of p t -> forall c w hs, does [] t c w hs -> exists a, In a p /\ accesses [] (body a) c w hs.
Proof.
  induction 1 as [|a p t u H H' IH]; intros c w hs A; [inversion A|].
  destruct (runs_does _ _ H _ _ _ _ _ A) as [K|K]; [exists a; split; [now left|exact K]|].
  destruct (IH _ _ _ K) as (b & I & B). exists b. split; [now right|exact B].
Qed.

(** What every thread may still do was in its program. *)
Definition sound (progs : list (list api)) (s : sys) (hs : list (list mutex)) : Prop :=
  forall i h t p, nth_error hs i = Some h -> nth_error (todo s) i = Some t -> nth_error progs i = Some p ->
    forall c w k, does h t c w k -> exists a, In a p /\ accesses [] (body a) c w k.
Lemma Forall2_nth : forall (A B : Type) (P : A -> B -> Prop) l k, Forall2 P l k ->
  forall i x y, nth_error l i = Some x -> nth_error k i = Some y -> P x y.
Proof. induction 1; intros [|i] a b Ha Hb; cbn in *; try discriminate; [congruence|eauto]. Qed.
Lemma Forall2_nth_l : forall (A B : Type) (P : A -> B -> Prop) l k, Forall2 P l k -> length l = length k.
Proof. induction 1; cbn; auto. Qed.

Lemma begins_sound : forall progs s, begins progs s -> sound progs s (map (fun _ => []) (todo s)).
Proof.
  intros progs s [O F] i h t p A B C c w k D. rewrite nth_error_map, B in A. cbn in A. injection A as <-.
  eapply thread_does; [exact (Forall2_nth _ _ _ _ _ F _ _ _ C B)|exact D].
Qed.
Lemma move_sound : forall progs i s s' hs h a t, move i s s' -> nth_error hs i = Some h -> nth_error (todo s) i = Some (a :: t) ->
  sound progs s hs -> sound progs s' (set_nth i (stack_after h a) hs).
Proof.
  intros progs i s s' hs h a t M Hh Ht Q. destruct M as [o ts a' t' N E]. cbn in *. rewrite Ht in N. injection N as <- <-.
  intros j k u p A B C c w q D. cbn in *. destruct (Nat.eq_dec i j) as [<-|NE].
  - rewrite (set_nth_same _ _ _ h) in A by exact Hh. rewrite (set_nth_same _ _ _ (a :: t)) in B by exact Ht.
    injection A as <-. injection B as <-. eapply Q; [exact Hh|exact Ht|exact C|]. constructor. exact D.
  - rewrite set_nth_other in A by exact NE. rewrite set_nth_other in B by exact NE. eapply Q; eassumption.
Qed.
Lemma reach_sound : forall progs s s', reach s s' -> forall hs, inv2 s hs -> sound progs s hs -> exists hs', inv2 s' hs' /\ sound progs s' hs'.
Proof.
  induction 1 as [s|s i s' s'' M R IH]; intros hs I Q; [eauto|].
  destruct (move_inv2 _ _ _ _ M I) as (h & a & t & A & B & I'). eapply IH; [exact I'|]. eapply move_sound; eassumption.
Qed.
Lemma move_length : forall i s s', move i s s' -> length (todo s') = length (todo s).
Proof. intros i s s' M. destruct M. cbn. apply set_nth_length. Qed.
Lemma reach_length : forall s s', reach s s' -> length (todo s') = length (todo s).
Proof. induction 1 as [|s i s' s'' M R IH]; [reflexivity|]. rewrite IH. eapply move_length, M. Qed.

Lemma compatible_no_race : forall progs,
  (forall i j p q a b, i <> j -> nth_error progs i = Some p -> nth_error progs j = Some q -> In a p -> In b q -> compatible a b) ->
  race_free progs.
Proof.
  intros progs C s0 s B R (i & j & c & a & b & t & u & NE & Hi & Hj & Ta & Tb & W).
  destruct (reach_sound progs _ _ R _ (begins_inv2 _ _ B) (begins_sound _ _ B)) as (hs & [[L D O] ND] & Q).
  assert (Lp : length progs = length (todo s)).
  { rewrite (reach_length _ _ R). destruct B as [_ F]. eapply Forall2_nth_l, F. }
  destruct (nth_len _ _ progs _ i _ Lp Hi) as (p & Hp). destruct (nth_len _ _ progs _ j _ Lp Hj) as (q & Hq).
  destruct (nth_len _ _ hs _ i _ L Hi) as (h & Hh). destruct (nth_len _ _ hs _ j _ L Hj) as (k & Hk).
  assert (A1 : exists w, does h (a :: t) c w h /\ (a = AWr c -> w = true)).
  { destruct Ta as [->| ->]; eexists; split; [constructor|discriminate|constructor|reflexivity]. }
  assert (A2 : exists w, does k (b :: u) c w k /\ (b = AWr c -> w = true)).
  { destruct Tb as [->| ->]; eexists; split; [constructor|discriminate|constructor|reflexivity]. }
  destruct A1 as (w1 & A1 & E1). destruct A2 as (w2 & A2 & E2).
  destruct (Q _ _ _ _ Hh Hi Hp _ _ _ A1) as (x & Ix & X). destruct (Q _ _ _ _ Hk Hj Hq _ _ _ A2) as (y & Iy & Y).
  destruct (C _ _ _ _ _ _ NE Hp Hq Ix Iy _ _ _ _ _ X Y ltac:(tauto)) as (m & M1 & M2).
  assert (O1 : owner s m = Some i) by (apply O; eauto). assert (O2 : owner s m = Some j) by (apply O; eauto). congruence.
Qed.

(** ** Incompatible calls do race *)
(** The calls can be driven to any of their accesses, holding exactly the mutexes of that access. *)
Definition lock_acts (l : list mutex) : list act := map ALock l.
Lemma accesses_prefix : forall h b c w hs, accesses h b c w hs ->
  exists l t, hs = rev l ++ h /\ runs b (lock_acts l ++ (if w then AWr c else ARd c) :: t).
Proof.
  induction 1 as [h c b|h c b|h m b b' c w hs A (l & t & E & Q)|h s b c w hs A (l & t & E & Q)].
  - exists [], []. split; [reflexivity|]. cbn. apply runs_rd, runs_end.
  - exists [], []. split; [reflexivity|]. cbn. apply runs_wr, runs_end.
  - exists (m :: l), (t ++ [AUnlock m]). split; [cbn; rewrite <- app_assoc; exact E|]. cbn.
    match goal with |- runs _ (_ :: ?x) => replace x with ((lock_acts l ++ (if w then AWr c else ARd c) :: t) ++ AUnlock m :: []) end.
    + apply runs_hold; [exact Q|apply runs_end].
    + rewrite <- app_assoc. reflexivity.
  - exists l, t. split; [exact E|]. apply runs_skip, Q.
Qed.
(** A thread that finds all its mutexes free acquires them. *)
Lemma drive : forall l i o ts t, nth_error ts i = Some (lock_acts l ++ t) -> NoDup l -> (forall m, In m l -> o m = None) ->
  exists o', reach (MkSys o ts) (MkSys o' (set_nth i t ts)) /\ (forall m, ~ In m l -> o' m = o m).
Proof.
  induction l as [|m l IH]; intros i o ts t N ND F.
  - exists o. split; [|auto]. cbn in N. replace (set_nth i t ts) with ts; [constructor|].
    clear -N. revert i N. induction ts as [|x ts IHt]; intros [|i] N; cbn in *; try discriminate; [congruence|]. f_equal. auto.
  - inversion ND; subst. cbn in N.
    destruct (IH i (own_after o i (ALock m)) (set_nth i (lock_acts l ++ t) ts) t) as (o' & R & K).
    + eapply set_nth_same, N.
    + assumption.
    + intros x I. cbn. rewrite mutex_eqb_neq by (intros ->; contradiction). apply F. now right.
    + exists o'. split.
      * econstructor; [econstructor; [exact N|]; cbn; apply F; now left|].
        replace (set_nth i t ts) with (set_nth i t (set_nth i (lock_acts l ++ t) ts)); [exact R|].
        clear. revert i. induction ts as [|x ts IHt]; intros [|i]; cbn; auto. now rewrite IHt.
      * intros x I. rewrite K by (intro; apply I; now right). cbn. rewrite mutex_eqb_neq; [reflexivity|]. intros ->. apply I. now left.
Qed.
Lemma accesses_nodup : forall h b c w hs, accesses h b c w hs -> ordered h b = true -> NoDup h -> NoDup hs.
Proof.
  induction 1 as [h c b|h c b|h m b b' c w hs A IH|h s b c w hs A IH]; intros O N; auto.
  - unfold ordered in O. cbn [forallb] in O. apply andb_prop in O. destruct O as [O _]. rewrite ordered_hold in O.
    apply andb_prop in O. destruct O as [O1 O2]. apply IH; [exact O2|]. constructor; [|exact N].
    intro I. rewrite forallb_forall in O1. specialize (O1 _ I). apply Nat.ltb_lt in O1. lia.
  - unfold ordered in O. cbn [forallb] in O. apply andb_prop in O. destruct O as [_ O]. apply IH; assumption.
Qed.

Lemma incompatible_race : forall a b c w1 w2 h1 h2, accesses [] (body a) c w1 h1 -> accesses [] (body b) c w2 h2 ->
  w1 = true \/ w2 = true -> (forall m, In m h1 -> ~ In m h2) -> ~ race_free [[a]; [b]].
Proof.
  intros a b c w1 w2 h1 h2 A B W X F.
  assert (N1 := accesses_nodup _ _ _ _ _ A (body_ordered a) (NoDup_nil _)).
  assert (N2 := accesses_nodup _ _ _ _ _ B (body_ordered b) (NoDup_nil _)).
  destruct (accesses_prefix _ _ _ _ _ A) as (l & t & E1 & R1). destruct (accesses_prefix _ _ _ _ _ B) as (k & u & E2 & R2).
  rewrite app_nil_r in E1, E2. subst h1 h2.
  set (x := (if w1 then AWr c else ARd c) :: t) in *. set (y := (if w2 then AWr c else ARd c) :: u) in *.
  assert (Nl : NoDup l) by (rewrite <- (rev_involutive l); apply NoDup_rev, N1).
  assert (Nk : NoDup k) by (rewrite <- (rev_involutive k); apply NoDup_rev, N2).
  destruct (drive l 0 (fun _ => None) [lock_acts l ++ x; lock_acts k ++ y] x eq_refl Nl (fun _ _ => eq_refl)) as (o1 & Q1 & K1).
  destruct (drive k 1 o1 [x; lock_acts k ++ y] y eq_refl Nk) as (o2 & Q2 & K2).
  { intros m I. rewrite K1; [reflexivity|]. intro J. apply (X m); rewrite <- in_rev; assumption. }
  cbn in Q1, Q2.
  apply (F (start [lock_acts l ++ x; lock_acts k ++ y]) (MkSys o2 [x; y])).
  - split; [reflexivity|]. cbn. constructor; [|constructor; [|constructor]].
    + rewrite <- (app_nil_r (lock_acts l ++ x)). constructor; [exact R1|constructor].
    + rewrite <- (app_nil_r (lock_acts k ++ y)). constructor; [exact R2|constructor].
  - eapply reach_trans; [exact Q1|exact Q2].
  - exists 0, 1, c, (if w1 then AWr c else ARd c), (if w2 then AWr c else ARd c), t, u.
    unfold touches. repeat split; [discriminate| | |]; [destruct w1; auto|destruct w2; auto|].
    destruct W as [->| ->]; [left|right]; reflexivity.
Qed.
