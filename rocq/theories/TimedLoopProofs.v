(** Proofs: the exact instance, and invariants of the loop in doubles. *)
From Coq Require Import String Reals ZArith List Bool Lia Lra Sorting.Permutation Sorting.Sorted.
From Flocq Require Import Core IEEE754.BinarySingleNaN.
From Verif Require Import Doubles DoublesGen DoublesSpec DoublesProofs Prelude FootPrint Planner Generator TimedPlan TimedPlanSpec
  TimedLoop TimedLoopSpec.
Import ListNotations.
Open Scope R_scope.

(** ** The exact instance *)
Lemma join_split : forall s, join_step (split_step s) = s.
Proof. intros []. reflexivity. Qed.
Lemma map_join_split : forall l, map join_step (map split_step l) = l.
Proof. intros. rewrite map_map. rewrite (map_ext _ (fun x => x)); [apply map_id|apply join_split]. Qed.
Lemma print_split : forall fp, print_of fp (map split_step (fp_steps fp)) = fp.
Proof. intros []. unfold print_of. cbn. rewrite map_join_split. reflexivity. Qed.
Lemma find_split : forall f (g : pose * R -> bool) l, (forall s, f s = g (split_step s)) ->
  find g (map split_step l) = option_map split_step (find f l).
Proof.
  induction l as [|a l IH]; intros H; auto. cbn [map find]. rewrite <- H. destruct (f a); auto.
Qed.
Lemma c0_exact : c0 reals = 0.
Proof. unfold c0. cbn. lra. Qed.
Lemma only_exact : forall (p : vec2) (a t : R) (n : string) (fp : footprint), n = fp_name fp -> let q : pose := (p, a, n) in
  fp_addStep p a t (fp_clear fp) = (print_of fp (fst (t_only reals q t)), snd (t_only reals q t)).
Proof.
  intros p a t n fp -> q. unfold fp_addStep, t_only, t_add, below0, print_of. rewrite c0_exact. cbn [a_lt reals fp_clear fp_steps fp_name].
  rcases; reflexivity.
Qed.
Lemma present_exact : forall lfp rfp (b : bool) t (fp : footprint), fp = (if b then lfp else rfp) ->
  let x := t_present reals (again_in lfp rfp b) t (map split_step (fp_steps fp)) in
  fp_keepPresent t fp = (print_of fp (fst x), snd x).
Proof.
  intros lfp rfp b t fp E x. subst x. unfold fp_keepPresent, t_present. rewrite <- map_rev.
  rewrite (find_split (fun a => Rleb (st_time a) t)) by reflexivity. destruct (find _ _) as [d|].
  - cbn [option_map]. apply only_exact. rewrite E. reflexivity.
  - cbn [option_map fst snd]. rewrite print_split. reflexivity.
Qed.
(** A foot that keepOnlyPresentStep accepted has one step. *)
Lemma present_one : forall N P (A : arith N) again t (f : tfoot N P), snd (t_present A again t f) = true ->
  exists x, fst (t_present A again t f) = [x].
Proof.
  intros N P A again t f. unfold t_present. destruct (find _ _) as [x|]; [|discriminate]. unfold t_only, t_add.
  destruct (below0 A (snd x)); [discriminate|]. cbn. eauto.
Qed.
Lemma present_name : forall lfp rfp (b : bool) t f x, fst (t_present reals (again_in lfp rfp b) t f) = [x] -> snd (t_present reals (again_in lfp rfp b) t f) = true ->
  snd (fst x) = fp_name (if b then lfp else rfp).
Proof.
  intros lfp rfp b t f x. unfold t_present. destruct (find _ _) as [y|]; [|discriminate]. unfold t_only, t_add.
  destruct (below0 _ (snd y)); [discriminate|]. cbn. intros E _. inversion E. reflexivity.
Qed.

Lemma left_fps : forall l r g, gn_left (with_fps l r g) = l.
Proof. intros l r []. reflexivity. Qed.
Lemma right_fps : forall l r g, gn_right (with_fps l r g) = r.
Proof. intros l r []. reflexivity. Qed.
Lemma left_zmp : forall z g, gn_left (with_zmp z g) = gn_left g.
Proof. intros z []. reflexivity. Qed.
Lemma right_zmp : forall z g, gn_right (with_zmp z g) = gn_right g.
Proof. intros z []. reflexivity. Qed.
Lemma max_exact : forall a b, Rmax a b = if Rltb a b then b else a.
Proof. intros. unfold Rmax. destruct (Rle_dec a b); rcases; lra. Qed.

Lemma clear_print : forall l fp, fp_clear (MkFP l (fp_name fp)) = fp_clear fp.
Proof. reflexivity. Qed.

Lemma ready_exact : forall plan garbage g init tend mL mR k,
  let '(l, r, ok) := t_ready reals (again_in (gn_left g) (gn_right g)) init (should_reset garbage g) k (edit_pose mL) (edit_pose mR)
    (st_time mL) (st_time mR) (map split_step (fp_steps (gn_left g))) (map split_step (fp_steps (gn_right g))) in
  let g' := replan plan garbage g init tend mL mR k in
  let L := print_of (gn_left g) l in let R := print_of (gn_right g) r in
  (gn_left (fst g'), gn_right (fst g'), snd g') = if ok then plan L R init tend else (L, R, false).
Proof.
  intros. unfold t_ready, replan.
  rewrite (present_exact (gn_left g) (gn_right g) true init (gn_left g) eq_refl).
  rewrite (present_exact (gn_left g) (gn_right g) false init (gn_right g) eq_refl).
  pose proof (present_one _ _ reals (again_in (gn_left g) (gn_right g) true) init (map split_step (fp_steps (gn_left g)))) as H1.
  pose proof (present_one _ _ reals (again_in (gn_left g) (gn_right g) false) init (map split_step (fp_steps (gn_right g)))) as H2.
  pose proof (present_name (gn_left g) (gn_right g) true init (map split_step (fp_steps (gn_left g)))) as N1.
  pose proof (present_name (gn_left g) (gn_right g) false init (map split_step (fp_steps (gn_right g)))) as N2.
  destruct (t_present reals (again_in (gn_left g) (gn_right g) true) init _) as (l & okl).
  destruct (t_present reals (again_in (gn_left g) (gn_right g) false) init _) as (r & okr). cbn [fst snd] in *.
  destruct okl; cbn [negb]; [|rewrite print_split; cbn [fst snd]; rewrite left_fps, right_fps; reflexivity].
  destruct okr; cbn [negb]; [|cbn [fst snd]; rewrite left_fps, right_fps; reflexivity].
  destruct H1 as (x & ->); auto. destruct H2 as (y & ->); auto. specialize (N1 x eq_refl eq_refl). specialize (N2 y eq_refl eq_refl).
  cbn [last_opt print_of map fp_getLast fp_steps]. 
  destruct x as (((px & ax) & nx) & tx), y as (((py & ay) & ny) & ty). cbn [fst snd] in N1, N2. subst nx ny.
  set (reset := should_reset garbage g). unfold replace_by, fp_addStep', edited, t_edited.
  set (late := Rgtb _ _ || Rgtb _ _). set (late' := a_lt reals _ _ || a_lt reals _ _).
  assert (EL : late = late') by (subst late late'; destruct k; reflexivity). rewrite EL. clearbody late'. clear EL late.
  rewrite max_exact.
  assert (NL := fun p a t => only_exact p a t (fp_name (gn_left g)) (gn_left g) eq_refl). cbv zeta in NL.
  assert (NR := fun p a t => only_exact p a t (fp_name (gn_right g)) (gn_right g) eq_refl). cbv zeta in NR.
  assert (CL : forall l, fp_clear (print_of (gn_left g) l) = fp_clear (gn_left g)) by reflexivity.
  assert (CR : forall l, fp_clear (print_of (gn_right g) l) = fp_clear (gn_right g)) by reflexivity.
  destruct k, reset; cbn [corr_left corr_right orb andb join_step edit_step edit_pose pose_of again_in st_pos st_angle st_time st_name fst snd].
  all: try rewrite CL; try rewrite CR; try rewrite NL; try rewrite NR.
  all: unfold again_in, edit_pose, pose_of, edit_step, join_step; change (a_lt reals) with Rltb;
    cbn [st_pos st_angle st_time st_name fst snd].
  all: unfold pose.
  all: repeat match goal with |- context [@t_only ?a ?b ?c ?q ?t] => let f := fresh "f" in let ok := fresh "ok" in
    generalize (@t_only a b c q t); intros (f & ok); cbn [fst snd]; destruct ok; cbn [negb] end.
  all: try (cbn [fst snd]; rewrite left_fps, right_fps; reflexivity).
  all: match goal with H : footprint -> footprint -> R -> R -> _ |- context [?p ?l ?r ?i ?t] => constr_eq p H; destruct (p l r i t) as ((l2 & r2) & [|]) eqn:EP end; cbn [negb fst snd];
    rewrite ?left_zmp, ?right_zmp, left_fps, right_fps; (reflexivity || (symmetry; exact EP)).
Qed.

(** ** The loop in doubles *)
Lemma not_less : forall a b : f64, number a -> number b -> Bltb b a = false -> le64 a b.
Proof. intros a b Na Nb H. apply le64_key; auto. rewrite blt_key in H by auto. revert H. rcases; congruence || lra. Qed.
Lemma zero_number : number fzero.
Proof. apply fin_number. reflexivity. Qed.
Lemma only_ok : forall P (p : P) t, number t ->
  times_ok (fst (t_only ieee p t)) /\ (snd (t_only ieee p t) = true -> exists x, fst (t_only ieee p t) = [x])
  /\ (le64 fzero t -> snd (t_only ieee p t) = true).
Proof.
  intros P p t N. unfold t_only, t_add, below0. rewrite c0_zero. change (a_lt ieee t fzero) with (Bltb t fzero).
  destruct (Bltb t fzero) eqn:L; cbn [fst snd app].
  - split; [intros ? []|]. split; [discriminate|]. intros H. apply le64_inv in H. rewrite blt_key in L by auto using zero_number. revert L. rcases; congruence || lra.
  - split; [|split; eauto]. intros x [<-|[]]. cbn [snd]. apply not_less; auto using zero_number.
Qed.
Lemma present_ok : forall P (again : P -> P) t f, times_ok f ->
  times_ok (fst (t_present ieee again t f)) /\ (snd (t_present ieee again t f) = true -> exists x, fst (t_present ieee again t f) = [x])
  /\ ((exists x, In x f /\ le64 (snd x) t) -> snd (t_present ieee again t f) = true).
Proof.
  intros P again t f T. unfold t_present. destruct (find _ _) as [x|] eqn:F.
  - apply find_some in F. destruct F as (I & _). apply in_rev in I. destruct (le64_number _ _ (T x I)) as (_ & N).
    destruct (only_ok P (again (fst x)) (snd x) N) as (A & B & C). split; auto.
  - split; [exact T|]. split; [discriminate|]. intros (x & I & L). apply in_rev in I. apply (find_none _ _ F) in I. cbn in I. unfold le64 in L. congruence.
Qed.

Lemma ready_ok : forall P (again : bool -> P -> P) init reset k eL eR mL mR left right,
  times_ok left -> times_ok right -> (corr_left k = true -> number mL) -> (corr_right k = true -> number mR) ->
  let '(l, r, ok) := t_ready ieee again init reset k eL eR mL mR left right in
  times_ok l /\ times_ok r /\ (ok = true -> exists x y, l = [x] /\ r = [y]) /\
  ((exists x, In x left /\ le64 (snd x) init) -> (exists x, In x right /\ le64 (snd x) init) ->
   (corr_left k = true -> le64 fzero mL) -> (corr_right k = true -> le64 fzero mR) -> ok = true).
Proof.
  intros P again init reset k eL eR mL mR left right TL TR NL NR. unfold t_ready.
  destruct (present_ok P (again true) init left TL) as (A1 & B1 & C1). destruct (present_ok P (again false) init right TR) as (A2 & B2 & C2).
  destruct (t_present ieee (again true) init left) as (l & okl). destruct (t_present ieee (again false) init right) as (r & okr).
  cbn [fst snd] in *. destruct okl; cbn [negb].
  2:{ split; auto. split; auto. split; [discriminate|]. intros H _ _ _. apply C1 in H. discriminate. }
  destruct okr; cbn [negb].
  2:{ split; auto. split; auto. split; [discriminate|]. intros _ H _ _. apply C2 in H. discriminate. }
  clear C1 C2. destruct B1 as (pl & ->); auto. destruct B2 as (pr & ->); auto. cbn [last_opt].
  assert (ZL : le64 fzero (snd pl)) by (apply A1; left; auto). assert (ZR : le64 fzero (snd pr)) by (apply A2; left; auto).
  destruct (le64_number _ _ ZL) as (_ & PL). destruct (le64_number _ _ ZR) as (_ & PR).
  set (corr := match k with CNone => reset | _ => true end).
  destruct (t_edited ieee init reset k pl pr eL eR mL mR) as (el & er) eqn:E.
  assert (X : (number (snd el) /\ ((corr_left k = true -> le64 fzero mL) -> le64 fzero (snd el)))
    /\ (number (snd er) /\ ((corr_right k = true -> le64 fzero mR) -> le64 fzero (snd er)))).
  { unfold t_edited in E. injection E as E1 E2. subst el er. cbn [snd].
    destruct (corr_left k) eqn:KL, (corr_right k) eqn:KR, reset;
      repeat match goal with |- context [if ?b then _ else _] => destruct b end; auto 6. }
  destruct X as ((X1 & X2) & (X3 & X4)).
  destruct (only_ok P (again true (fst el)) (snd el) X1) as (F1 & F2 & F3).
  destruct (only_ok P (again false (fst er)) (snd er) X3) as (G1 & G2 & G3).
  assert (Q : forall (cond : bool) (p : P) t x, times_ok [x] -> number t ->
    exists f ok, (if cond then t_only ieee p t else @pair (tfoot f64 P) bool [x] true) = (f, ok) /\ times_ok f /\ (ok = true -> exists y, f = [y]) /\ (le64 fzero t -> ok = true)).
  { intros cond p t x Tx Nt. destruct (only_ok P p t Nt) as (O1 & O2 & O3). destruct cond.
    - exists (fst (t_only ieee p t)), (snd (t_only ieee p t)). split; [destruct (t_only ieee p t); auto|auto].
    - exists [x], true. eauto. }
  destruct (Q (corr && (corr_left k || reset)) (again true (fst el)) (snd el) pl) as (l1 & ok1 & -> & R1 & R2 & R3); auto.
  destruct (Q (corr && (corr_right k || reset)) (again false (fst er)) (snd er) pr) as (r1 & ok2 & -> & S1 & S2 & S3); auto.
  destruct ok1; cbn [negb].
  - split; auto. split; auto. split.
    + intros ->. destruct R2 as (x & ->); auto. destruct S2 as (y & ->); auto. eauto.
    + intros _ _ _ H. auto.
  - split; auto. split; auto. split; [discriminate|]. intros _ _ H _. auto.
Qed.

(** The planner accesses no missing step if no foot has more steps than the other. *)
Lemma plan_defined : forall P c (o : geo f64 P) n left right, fresh64 left right -> t_plan ieee c o n left right <> TUB.
Proof.
  intros P c o n left right F. unfold t_plan. destruct (negb _); [discriminate|].
  destruct (t_feet ieee c o left right) as [[[[l r] sw] first]|] eqn:E; [|discriminate]. destruct (a_le ieee _ _); [discriminate|]. destruct (negb (o_integ o)); [discriminate|].
  assert (L : (length l = 0 /\ length r = 0 \/ length l = 1 /\ length r = 1)%nat).
  { unfold t_feet in E. destruct F as [(-> & ->)|(x & y & -> & ->)]; cbn [last_opt] in E.
    - destruct (o_point o); [|discriminate]. injection E as <- <- _ _. unfold t_keep, t_add. destruct (below0 _ _); auto.
    - right. destruct (a_eq ieee _ _); [|destruct (a_lt ieee (snd x) (snd y))];
        (destruct (_ || _ || _) in E; [discriminate|]; injection E as <- <- _ _; auto). }
  unfold t_search. destruct (last_opt (if sw then r else l)) as [prev|] eqn:LP; [|discriminate].
  assert (L1 : (length l = 1 /\ length r = 1)%nat).
  { destruct L as [(L1 & L2)|L]; auto. destruct l, r; try discriminate L1; try discriminate L2. destruct sw; discriminate LP. }
  destruct (t_run _ _ _ _ _) as [s| |]; try discriminate.
  assert (T : (if c_addTerm c then t_terminal ieee c o (t_sw s) (t_left s) (t_right s) else Ok (t_left s, t_right s)) <> UB).
  { destruct (c_addTerm c); [|discriminate]. unfold t_terminal. repeat (destruct (last_opt _) || destruct (o_term _ _ _ _ _ _) as [[|]|] || destruct (o_pose _ _ _ _ _)
      || destruct (o_still _ _ _ _ _) as [[|]|] || destruct (o_par _ _ _ _) || destruct (t_step _ _ _ _ _ _) as [[? ?]|]); cbn [negb]; try discriminate. }
  destruct (if c_addTerm c then _ else _) as [(l' & r')| |]; try discriminate; [|congruence].
  destruct (Nat.eqb _ _ && Nat.eqb _ _) eqn:EL; [|discriminate]. apply andb_true_iff in EL. destruct EL as (E1 & E2). apply Nat.eqb_eq in E1. apply Nat.eqb_eq in E2.
  destruct L1 as (L1 & L2). rewrite L1 in E1. rewrite L2 in E2. destruct l' as [|(p & tl) [|]]; try discriminate E1. destruct r' as [|(q & tr) [|]]; try discriminate E2.
  unfold t_sync. cbn [last_opt]. destruct (a_lt ieee tr tl); [discriminate|]. destruct (a_lt ieee tl tr); discriminate.
Qed.

(** The feet handed to the planner have landed. *)
Lemma only_shape : forall P (p : P) t f, t_only ieee p t = (f, true) -> f = [(p, t)].
Proof.
  intros P p t f Ho. unfold t_only in Ho. destruct (t_add ieee p t []) as [g|] eqn:Ha; [|discriminate]. unfold t_add in Ha. destruct (below0 ieee t); [discriminate|].
  inversion Ha; inversion Ho; subst. reflexivity.
Qed.
Lemma present_landed : forall P (again : P -> P) init f x, t_present ieee again init f = ([x], true) -> le64 (snd x) init.
Proof.
  intros P again init f x Hx. unfold t_present in Hx. destruct (find _ (rev f)) as [y|] eqn:F; [|discriminate]. apply find_some in F. destruct F as (F1 & F2).
  unfold t_only, t_add in Hx. destruct (below0 ieee (snd y)); [discriminate|]. inversion Hx; subst. exact F2.
Qed.
Lemma ready_landed : forall P (again : bool -> P -> P) init reset k eL eR mL mR left right l r, number init ->
  times_ok left -> times_ok right -> (corr_left k = true -> number mL) -> (corr_right k = true -> number mR) ->
  t_ready ieee again init reset k eL eR mL mR left right = (l, r, true) ->
  exists a b, l = [a] /\ r = [b] /\ le64 (snd a) init /\ le64 (snd b) init.
Proof.
  intros P again init reset k eL eR mL mR left right l r Ni TL TR NL NR E. unfold t_ready in E.
  destruct (present_ok P (again true) init left TL) as (A1 & B1 & _). destruct (present_ok P (again false) init right TR) as (A2 & B2 & _).
  pose proof (present_landed P (again true) init left) as PL. pose proof (present_landed P (again false) init right) as PR.
  destruct (t_present ieee (again true) init left) as (l0 & okl). destruct (t_present ieee (again false) init right) as (r0 & okr). cbn [fst snd] in *.
  destruct okl; cbn [negb] in E; [|discriminate]. destruct okr; cbn [negb] in E; [|discriminate].
  destruct B1 as (pl & ->); auto. destruct B2 as (pr & ->); auto. cbn [last_opt] in E.
  specialize (PL pl eq_refl). specialize (PR pr eq_refl).
  set (corr := match k with CNone => reset | _ => true end) in E.
  destruct (t_edited ieee init reset k pl pr eL eR mL mR) as (el & er) eqn:EE.
  unfold t_edited in EE. injection EE as E1 E2. cbn [a_lt ieee] in E1, E2.
  assert (X : le64 (snd el) init /\ le64 (snd er) init).
  { subst el er. cbn [snd]. destruct reset; [destruct (Bltb (snd pl) (snd pr)); auto|].
    destruct (corr_left k), (corr_right k); repeat match goal with |- context [Bltb init ?y] => destruct (Bltb init y) eqn:? end; cbn [orb]; split; auto; apply not_less; auto. }
  destruct X as (X1 & X2).
  assert (KEEP : forall (cond : bool) (p : P) t f (x : P * f64), (if cond then t_only ieee p t else @pair (tfoot f64 P) bool [x] true) = (f, true) ->
    le64 t init -> le64 (snd x) init -> exists y, f = [y] /\ le64 (snd y) init).
  { intros cond p t f x Hf Ht Hx. destruct cond; [apply only_shape in Hf|inversion Hf]; subst f; eauto. }
  destruct (if corr && (corr_left k || reset) then t_only ieee (again true (fst el)) (snd el) else @pair (tfoot f64 P) bool [pl] true) as (l1 & ok1) eqn:O1.
  destruct ok1; cbn [negb] in E; [|discriminate].
  destruct (if corr && (corr_right k || reset) then t_only ieee (again false (fst er)) (snd er) else @pair (tfoot f64 P) bool [pr] true) as (r1 & ok2) eqn:O2.
  inversion E; subst ok2 l r. destruct (KEEP _ _ _ _ _ O1 X1 PL) as (a & -> & Ha). destruct (KEEP _ _ _ _ _ O2 X2 PR) as (b & -> & Hb). eauto 6.
Qed.
