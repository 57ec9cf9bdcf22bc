From Coq Require Import String.
From Coq Require Import Reals Lra Lia List Bool Sorting.Sorted Sorting.Permutation.
From Verif Require Import Prelude FootPrint FootPrintSpec Shared SharedSpec.
Import ListNotations.
Open Scope R_scope.

Section Lists.
Context {A : Type}.
Lemma upd_length : forall (l : list A) n x, List.length (upd n x l) = List.length l.
Proof. induction l; destruct n; simpl; intros; auto. Qed.
Lemma upd_same : forall (l : list A) n x, (n < List.length l)%nat -> nth_error (upd n x l) n = Some x.
Proof. induction l; destruct n; simpl; intros; try lia; auto. apply IHl; lia. Qed.
Lemma upd_other : forall (l : list A) n m x, n <> m -> nth_error (upd n x l) m = nth_error l m.
Proof. induction l; destruct n, m; simpl; intros; auto; try congruence. Qed.
Lemma upd_put : forall (l : list A) n x, (n < List.length l)%nat -> upd n x l = firstn n l ++ x :: skipn (S n) l.
Proof. induction l; destruct n; simpl; intros; try lia; auto. rewrite IHl by lia. reflexivity. Qed.
Lemma upd_self : forall (l : list A) n x, nth_error l n = Some x -> upd n x l = l.
Proof. induction l; destruct n; simpl; intros; try discriminate; [congruence|f_equal; auto]. Qed.
End Lists.
Lemma upd_map : forall {A B} (f : A -> B) l n x, map f (upd n x l) = upd n (f x) (map f l).
Proof. induction l; destruct n; simpl; intros; auto. f_equal; auto. Qed.
Lemma map_upd_ext : forall {A B} (f g : A -> B) l n x y, nth_error l n <> None ->
  y = f x -> (forall m b, m <> n -> nth_error l m = Some b -> f b = g b) ->
  map f (upd n x l) = upd n y (map g l).
Proof.
  induction l; destruct n; simpl; intros; try congruence; subst; f_equal.
  - apply map_ext_in. intros b Hb. apply In_nth_error in Hb as [m Hm]. apply (H1 (S m)); auto.
  - apply (H1 0%nat); auto.
  - apply IHl; auto. intros m b Hm Hb. apply (H1 (S m)); auto.
Qed.

(** No list has two holders, and every holder has a list. *)
Definition own (w : world) : Prop :=
  (forall o b p, nth_error (w_objs w) o = Some b -> o_ptr b = Some p -> (p < List.length (w_cells w))%nat)
  /\ (forall o o' b b' p, nth_error (w_objs w) o = Some b -> nth_error (w_objs w) o' = Some b' ->
        o_ptr b = Some p -> o_ptr b' = Some p -> o = o').

Lemma own_new : own w_new.
Proof. split; intros; destruct o; discriminate. Qed.

Lemma nth_snoc : forall {A} (l : list A) x n b, nth_error (l ++ [x]) n = Some b ->
  (n < List.length l)%nat /\ nth_error l n = Some b \/ n = List.length l /\ b = x.
Proof.
  intros A l x n b H. destruct (Nat.lt_ge_cases n (List.length l)) as [L|L].
  - left. rewrite nth_error_app1 in H; auto.
  - right. rewrite nth_error_app2 in H by lia. destruct (n - List.length l)%nat eqn:E; simpl in H.
    + inversion H; split; auto; lia.
    + destruct n0; discriminate.
Qed.
Lemma nth_upd : forall {A} (l : list A) x n m b, nth_error (upd n x l) m = Some b ->
  m = n /\ b = x \/ m <> n /\ nth_error l m = Some b.
Proof.
  intros A l x n m b H. destruct (Nat.eq_dec n m) as [->|D].
  - left. split; auto. assert (L : (m < List.length l)%nat).
    { rewrite <- (upd_length l m x). apply nth_error_Some. congruence. }
    rewrite upd_same in H; congruence.
  - right. rewrite upd_other in H; auto.
Qed.

Lemma own_add : forall cells objs c n, own (MkW cells objs) ->
  own (MkW (cells ++ [c]) (objs ++ [MkObj (Some (List.length cells)) n])).
Proof.
  intros cells objs c n [O1 O2]; split; cbn [w_cells w_objs] in *.
  - intros o b p Ho Hp. rewrite app_length; simpl. apply nth_snoc in Ho as [[_ Ho]|[_ ->]].
    + apply O1 with (1 := Ho) in Hp. lia.
    + simpl in Hp. inversion Hp; lia.
  - intros o o' b b' p Ho Ho' Hp Hp'.
    apply nth_snoc in Ho as [[_ Ho]|[-> ->]]; apply nth_snoc in Ho' as [[_ Ho']|[-> ->]]; auto.
    + eapply O2; eauto.
    + simpl in Hp'. inversion Hp'; subst. apply O1 with (1 := Ho) in Hp. lia.
    + simpl in Hp. inversion Hp; subst. apply O1 with (1 := Ho') in Hp'. lia.
Qed.

Lemma own_name : forall cells cells' objs o b n, own (MkW cells objs) -> List.length cells' = List.length cells ->
  nth_error objs o = Some b -> own (MkW cells' (upd o (MkObj (o_ptr b) n) objs)).
Proof.
  intros cells cells' objs o b n [O1 O2] L Hb; split; cbn [w_cells w_objs] in *.
  - intros x c p Hc Hp. rewrite L. apply nth_upd in Hc as [[-> ->]|[D Hc]]; simpl in *; eauto.
  - intros x y c d p Hc Hd Hp Hq.
    apply nth_upd in Hc as [[-> ->]|[D Hc]]; apply nth_upd in Hd as [[-> ->]|[D' Hd]]; simpl in *; eauto.
Qed.

Lemma own_step : forall e w op w' v, unshared op -> own w -> w_step e w op = Ok (w', v) -> own w'.
Proof.
  intros e [cells objs] op w' v U O H. destruct op; simpl in U; try contradiction; unfold w_step in H; cbn [w_cells w_objs] in H.
  - inversion H; subst. apply own_add; auto.
  - inversion H; subst. apply own_add; auto.
  - destruct (nth_error objs o) as [b|] eqn:Eb; [|discriminate]. inversion H; subst; clear H.
    destruct O as [O1 O2]; split; cbn [w_cells w_objs] in *.
    + intros x c p Hc Hp. apply nth_snoc in Hc as [[_ Hc]|[_ ->]].
      * apply nth_upd in Hc as [[-> ->]|[D Hc]]; simpl in *; [discriminate|eauto].
      * eauto.
    + assert (No : forall x c p, nth_error (upd o (MkObj None (e_moved e)) objs) x = Some c -> o_ptr c = Some p ->
                 x <> o /\ nth_error objs x = Some c).
      { intros x c p Hc Hp. apply nth_upd in Hc as [[-> ->]|[D Hc]]; simpl in *; [discriminate|auto]. }
      intros x y c d p Hc Hd Hp Hq.
      apply nth_snoc in Hc as [[_ Hc]|[Lx ->]]; apply nth_snoc in Hd as [[_ Hd]|[Ly ->]].
      * apply No with (2 := Hp) in Hc as [_ Hc]. apply No with (2 := Hq) in Hd as [_ Hd]. eauto.
      * apply No with (2 := Hp) in Hc as [D Hc]. exfalso. apply D. eapply O2; eauto.
      * apply No with (2 := Hq) in Hd as [D Hd]. exfalso. apply D. eapply O2; eauto.
      * congruence.
  - destruct (nth_error objs o) as [b|] eqn:Eb; [|discriminate].
    destruct (o_ptr b) as [p|] eqn:Ep.
    + destruct (nth_error cells p) as [l|]; [|discriminate].
      destruct (fp_call (MkFP l (o_name b)) f) as [fp z]. inversion H; subst; clear H.
      rewrite <- Ep. apply own_name with (cells := cells); auto. apply upd_length.
    + destruct (null_call (o_name b) f) as [r| |]; cbn [rbind] in H; try discriminate. inversion H; subst; clear H.
      rewrite <- Ep. apply own_name with (cells := cells); auto.
  - destruct (nth_error objs o) as [b|] eqn:Eb; [|discriminate].
    destruct (o_ptr b) as [p|] eqn:Ep; [|discriminate].
    destruct (nth_error cells p) as [l0|]; [|discriminate]. inversion H; subst; clear H.
    replace objs with (upd o (MkObj (o_ptr b) (o_name b)) objs).
    + apply own_name with (cells := cells); auto. apply upd_length.
    + apply upd_self. rewrite Eb. destruct b; reflexivity.
Qed.

Definition look (cells : list (list step)) (b : obj) : value :=
  (match o_ptr b with None => None | Some p => nth_error cells p end, o_name b).
Lemma look_eq : forall cells b, look cells b = (match o_ptr b with None => None | Some p => nth_error cells p end, o_name b).
Proof. reflexivity. Qed.
Lemma seen_look : forall cells objs, seen (MkW cells objs) = map (look cells) objs.
Proof. reflexivity. Qed.
Lemma seen_nth : forall cells objs o, nth_error (seen (MkW cells objs)) o = option_map (look cells) (nth_error objs o).
Proof. intros. rewrite seen_look. apply nth_error_map. Qed.
Lemma seen_len : forall cells objs, List.length (seen (MkW cells objs)) = List.length objs.
Proof. intros; rewrite seen_look; apply map_length. Qed.

Lemma look_grow : forall cells c objs, own (MkW cells objs) -> map (look (cells ++ [c])) objs = map (look cells) objs.
Proof.
  intros cells c objs [O1 _]. apply map_ext_in. intros b Hb. apply In_nth_error in Hb as [o Ho].
  unfold look. destruct (o_ptr b) as [p|] eqn:Ep; auto. rewrite nth_error_app1; auto. eapply O1; eauto.
Qed.

Lemma put_upd : forall o x (vs : list value), (o < List.length vs)%nat -> put o x vs = upd o x vs.
Proof. intros; unfold put; rewrite upd_put; auto. Qed.

(** Writing the list of one object changes that object only. *)
Lemma look_write : forall cells objs o b p l n, own (MkW cells objs) -> nth_error objs o = Some b -> o_ptr b = Some p ->
  map (look (upd p l cells)) (upd o (MkObj (Some p) n) objs) = upd o (Some l, n) (map (look cells) objs).
Proof.
  intros cells objs o b p l n [O1 O2] Hb Hp. cbn [w_cells w_objs] in *. apply map_upd_ext.
  - congruence.
  - unfold look; simpl. rewrite upd_same; eauto.
  - intros m c D Hc. unfold look. destruct (o_ptr c) as [q|] eqn:Eq; auto.
    rewrite upd_other; auto. intros ->. apply D. eapply O2; eauto.
Qed.

Lemma step_refines : forall e w op, unshared op -> own w ->
  match w_step e w op, v_step e (seen w) op with
  | Ok (w', v), Ok (vs, v') => seen w' = vs /\ v = v'
  | Fail, Fail => True
  | UB, UB => True
  | _, _ => False
  end.
Proof.
  intros e [cells objs] op U O. destruct op; simpl in U; try contradiction; unfold w_step, v_step; cbn [w_cells w_objs].
  - split; auto. rewrite !seen_look, map_app, look_grow by auto. cbn [map]. unfold look at 2. cbn [o_ptr o_name].
    rewrite nth_error_app2, Nat.sub_diag by lia. reflexivity.
  - split; auto. rewrite !seen_look, map_app, look_grow by auto. cbn [map]. unfold look at 2. cbn [o_ptr o_name].
    rewrite nth_error_app2, Nat.sub_diag by lia. reflexivity.
  - rewrite seen_nth. destruct (nth_error objs o) as [b|] eqn:Eb; cbn [option_map]; auto.
    split; auto. assert (L : (o < List.length objs)%nat) by (apply nth_error_Some; congruence).
    rewrite put_upd by (rewrite seen_len; auto). rewrite !seen_look, map_app, upd_map. reflexivity.
  - rewrite seen_nth. destruct (nth_error objs o) as [b|] eqn:Eb; cbn [option_map]; auto.
    assert (L : (o < List.length objs)%nat) by (apply nth_error_Some; congruence).
    rewrite (look_eq cells b). destruct (o_ptr b) as [p|] eqn:Ep.
    + assert (Lp : (p < List.length cells)%nat) by (destruct O as [O1 _]; eapply O1; eauto).
      destruct (nth_error cells p) as [l|] eqn:El; [|apply nth_error_None in El; lia].
      destruct (fp_call (MkFP l (o_name b)) f) as [fp z]. cbn [fst snd]. split; auto.
      rewrite put_upd by (rewrite seen_len; auto). rewrite !seen_look. eapply look_write; eauto.
    + destruct (null_call (o_name b) f) as [r| |]; cbn [rbind]; auto. split; auto.
      rewrite put_upd by (rewrite seen_len; auto). rewrite !seen_look, upd_map. reflexivity.
  - rewrite seen_nth. destruct (nth_error objs o) as [b|] eqn:Eb; cbn [option_map]; auto.
    assert (L : (o < List.length objs)%nat) by (apply nth_error_Some; congruence).
    rewrite (look_eq cells b). destruct (o_ptr b) as [p|] eqn:Ep; auto.
    assert (Lp : (p < List.length cells)%nat) by (destruct O as [O1 _]; eapply O1; eauto).
    destruct (nth_error cells p) as [l0|] eqn:El; [|apply nth_error_None in El; lia].
    split; auto. rewrite put_upd by (rewrite seen_len; auto). rewrite !seen_look.
    etransitivity; [|eapply (look_write cells objs o b p l (o_name b)); eauto].
    f_equal. symmetry. apply upd_self. rewrite Eb. destruct b; simpl in *; subst; reflexivity.
Qed.

Lemma run_refines : forall e ops w, Forall unshared ops -> own w -> same_run (w_run e w ops) (v_run e (seen w) ops).
Proof.
  intros e; induction ops as [|op ops IH]; intros w U O; cbn [w_run v_run].
  - simpl; auto.
  - inversion U; subst. pose proof (step_refines e w op H1 O) as S0.
    destruct (w_step e w op) as [[w' v]| |] eqn:Ew; destruct (v_step e (seen w) op) as [[vs v']| |];
      try contradiction; cbn [rbind fst snd]; try exact I.
    destruct S0 as [<- <-]. specialize (IH w' H2 (own_step _ _ _ _ _ H1 O Ew)).
    destruct (w_run e w' ops) as [[w2 z]| |]; destruct (v_run e (seen w') ops) as [[vs2 z']| |];
      simpl in IH |- *; try contradiction; auto. destruct IH as [-> ->]; auto.
Qed.

(** Two objects with one list. *)
Definition tied (w : world) (a b : nat) : Prop :=
  exists x y p, nth_error (w_objs w) a = Some x /\ nth_error (w_objs w) b = Some y /\ o_ptr x = Some p /\ o_ptr y = Some p.

Lemma objs_kept : forall e w op w' v a x p, ~ redirects a op -> w_step e w op = Ok (w', v) ->
  nth_error (w_objs w) a = Some x -> o_ptr x = Some p ->
  exists x', nth_error (w_objs w') a = Some x' /\ o_ptr x' = Some p.
Proof.
  intros e [cells objs] op w' v a x p R0 H Hx Hp.
  assert (La : (a < List.length objs)%nat) by (apply nth_error_Some; cbn [w_objs] in Hx; congruence).
  assert (App : forall m, nth_error (objs ++ m) a = Some x) by (intros; rewrite nth_error_app1; auto).
  destruct op; unfold w_step in H; cbn [w_cells w_objs redirects] in *.
  - inversion H; subst. eauto.
  - inversion H; subst. eauto.
  - destruct (nth_error cells p0); inversion H; subst; eauto.
  - destruct p0 as [q|]; [|discriminate]. destruct (nth_error cells q); inversion H; subst; eauto.
  - inversion H; subst. eauto.
  - destruct (nth_error objs o); inversion H; subst; eauto.
  - destruct (nth_error objs o); inversion H; subst. cbn [w_objs]. exists x.
    rewrite nth_error_app1 by (rewrite upd_length; auto). rewrite upd_other; auto.
  - destruct (nth_error objs dst); [|discriminate]. destruct (nth_error objs src); inversion H; subst.
    cbn [w_objs]. exists x. rewrite upd_other; auto.
  - destruct (nth_error objs o) as [b|] eqn:Eb; [|discriminate].
    destruct (o_ptr b) as [q|] eqn:Eq.
    + destruct (nth_error cells q) as [l|]; [|discriminate].
      destruct (fp_call (MkFP l (o_name b)) f) as [fp z]. inversion H; subst; cbn [w_objs].
      destruct (Nat.eq_dec o a) as [->|D].
      * rewrite upd_same by auto. assert (b = x) by congruence; subst. exists (MkObj (Some q) (fp_name fp)). simpl; split; auto; congruence.
      * rewrite upd_other by auto. eauto.
    + destruct (null_call (o_name b) f) as [r| |]; cbn [rbind] in H; try discriminate. inversion H; subst; cbn [w_objs].
      destruct (Nat.eq_dec o a) as [->|D].
      * congruence.
      * rewrite upd_other by auto. eauto.
  - destruct (nth_error objs o) as [b|] eqn:Eb; [|discriminate].
    destruct (o_ptr b) as [q|] eqn:Eq; [|discriminate].
    destruct (nth_error cells q) as [l0|]; inversion H; subst; eauto.
Qed.

Lemma tied_run : forall e ops w w' v a b, Forall (fun op => ~ redirects a op /\ ~ redirects b op) ops ->
  tied w a b -> w_run e w ops = Ok (w', v) -> tied w' a b.
Proof.
  intros e; induction ops as [|op ops IH]; intros w w' v a b N T H; cbn [w_run] in H.
  - inversion H; subst; auto.
  - inversion N; subst. destruct H2 as [Na Nb].
    destruct (w_step e w op) as [[w1 v1]| |] eqn:E1; cbn [rbind fst snd] in H; try discriminate.
    destruct (w_run e w1 ops) as [[w2 v2]| |] eqn:E2; cbn [rbind fst snd] in H; try discriminate.
    inversion H; subst; clear H. apply (IH w1 w' v2 a b H3); auto.
    destruct T as (x & y & p & Hx & Hy & Px & Py).
    destruct (objs_kept e w op w1 v1 a x p Na E1 Hx Px) as (x' & Hx' & Px').
    destruct (objs_kept e w op w1 v1 b y p Nb E1 Hy Py) as (y' & Hy' & Py').
    exists x', y', p; auto.
Qed.
Lemma tied_same : forall w a b, tied w a b -> w_steps w a = w_steps w b.
Proof. intros w a b (x & y & p & Hx & Hy & Px & Py). unfold w_steps. rewrite Hx, Hy, Px, Py. reflexivity. Qed.

Lemma copy_tied : forall e w o l w' v, w_steps w o = Some l -> w_step e w (WCopy o) = Ok (w', v) ->
  tied w' o (List.length (w_objs w)).
Proof.
  intros e [cells objs] o l w' v H H0. unfold w_steps in H. cbn [w_step w_cells w_objs] in *.
  destruct (nth_error objs o) as [b|] eqn:Eb; [|discriminate]. destruct (o_ptr b) as [p|] eqn:Ep; [|discriminate].
  inversion H0; subst; clear H0. assert (L : (o < List.length objs)%nat) by (apply nth_error_Some; congruence).
  exists b, b, p. cbn [w_objs]. rewrite nth_error_app1, nth_error_app2, Nat.sub_diag by lia. auto.
Qed.

(** Without moves and null pointers every object keeps a list. *)
Definition whole (w : world) : Prop :=
  forall o b, nth_error (w_objs w) o = Some b -> exists p, o_ptr b = Some p /\ (p < List.length (w_cells w))%nat.

Lemma whole_grow : forall cells objs c b, whole (MkW cells objs) ->
  whole (MkW (cells ++ [c]) (objs ++ [MkObj (Some (List.length cells)) b])).
Proof.
  intros cells objs c b W o x H. cbn [w_cells w_objs] in *. rewrite app_length; simpl.
  apply nth_snoc in H as [[_ H]|[_ ->]].
  - destruct (W o x H) as (p & P & L); cbn [w_cells] in L. exists p; split; auto; lia.
  - exists (List.length cells); simpl; split; auto; lia.
Qed.
Lemma whole_cells : forall cells cells' objs, whole (MkW cells objs) -> (List.length cells <= List.length cells')%nat ->
  whole (MkW cells' objs).
Proof. intros cells cells' objs W L o b H. destruct (W o b H) as (p & P & Lp); cbn [w_cells] in *. exists p; split; auto; lia. Qed.
Lemma whole_upd : forall cells objs o b n, whole (MkW cells objs) -> nth_error objs o = Some b ->
  whole (MkW cells (upd o (MkObj (o_ptr b) n) objs)).
Proof.
  intros cells objs o b n W Hb x c H. cbn [w_objs w_cells] in *. apply nth_upd in H as [[-> ->]|[_ H]].
  - exact (W o b Hb).
  - exact (W x c H).
Qed.

Lemma whole_step : forall e w op, no_null op -> whole w ->
  match w_step e w op with Ok (w', _) => whole w' | Fail => True | UB => False end.
Proof.
  intros e [cells objs] op N W. destruct op; simpl in N; try contradiction; unfold w_step; cbn [w_cells w_objs].
  - apply whole_grow; auto.
  - apply whole_cells with cells; auto. rewrite app_length; simpl; lia.
  - destruct (nth_error cells p); auto. apply whole_cells with cells; auto. rewrite upd_length; auto.
  - destruct p as [p|]; [|contradiction]. destruct (nth_error cells p) eqn:E; auto.
    assert (Lp : (p < List.length cells)%nat) by (apply nth_error_Some; congruence).
    intros o b H. cbn [w_objs w_cells] in *. rewrite upd_length. apply nth_snoc in H as [[_ H]|[_ ->]].
    + exact (W o b H).
    + exists p; auto.
  - apply whole_grow; auto.
  - destruct (nth_error objs o) as [b|] eqn:E; auto. intros x c H. cbn [w_objs w_cells] in *.
    apply nth_snoc in H as [[_ H]|[_ ->]]; [exact (W x c H)|exact (W o b E)].
  - destruct (nth_error objs dst); auto. destruct (nth_error objs src) as [b|] eqn:E; auto.
    intros x c H. cbn [w_objs w_cells] in *. apply nth_upd in H as [[_ ->]|[_ H]]; [exact (W src b E)|exact (W x c H)].
  - destruct (nth_error objs o) as [b|] eqn:E; auto. destruct (W o b E) as (p & P & Lp). cbn [w_cells] in Lp. rewrite P.
    destruct (nth_error cells p) as [l|]; auto. destruct (fp_call (MkFP l (o_name b)) f) as [fp z].
    rewrite <- P. apply whole_upd; auto. apply whole_cells with cells; auto. rewrite upd_length; auto.
  - destruct (nth_error objs o) as [b|] eqn:E; auto. destruct (W o b E) as (p & P & Lp). cbn [w_cells] in Lp. rewrite P.
    destruct (nth_error cells p); auto. apply whole_cells with cells; auto. rewrite upd_length; auto.
Qed.
Lemma whole_run : forall e ops w, Forall no_null ops -> whole w -> w_run e w ops <> UB.
Proof.
  intros e; induction ops as [|op ops IH]; intros w N W; cbn [w_run]; [discriminate|].
  inversion N; subst. pose proof (whole_step e w op H1 W) as H.
  destruct (w_step e w op) as [[w1 v1]| |]; cbn [rbind fst snd]; [|discriminate|contradiction].
  specialize (IH w1 H2 H). destruct (w_run e w1 ops); cbn [rbind]; congruence.
Qed.
Lemma whole_new : whole w_new.
Proof. intros o b H. destruct o; discriminate. Qed.

(** A sorting function exists. *)
Fixpoint put_in (s : step) (l : list step) : list step :=
  match l with
  | [] => [s]
  | a :: r => if Rle_dec (st_time s) (st_time a) then s :: l else a :: put_in s r
  end.
Definition by_time (l : list step) : list step := fold_right put_in [] l.
Lemma put_in_perm : forall s l, Permutation (put_in s l) (s :: l).
Proof. intros s; induction l; simpl; auto. destruct (Rle_dec _ _); auto. rewrite IHl. apply perm_swap. Qed.
Lemma put_in_sorted : forall s l, time_sorted l -> time_sorted (put_in s l).
Proof.
  intros s; induction l as [|a l IH]; intros H; simpl; [repeat constructor|].
  inversion H; subst. destruct (Rle_dec _ _).
  - constructor; auto. constructor; auto. eapply Forall_impl; [|exact H3]. simpl; intros; lra.
  - constructor; [apply IH; auto|].
    assert (F : Forall (fun b => st_time a <= st_time b) (s :: l)) by (constructor; auto; lra).
    eapply Permutation_Forall; [symmetry; apply put_in_perm|exact F].
Qed.
Lemma by_time_sorts : forall n, sorts (MkOpen by_time n).
Proof.
  intros n l. cbn [e_sort]. induction l as [|a l [P Q]]; simpl; [split; [auto|constructor]|].
  split; [rewrite put_in_perm; auto|apply put_in_sorted; auto].
Qed.
