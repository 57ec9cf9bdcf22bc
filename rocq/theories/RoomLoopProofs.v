(** Feet handed to the planner by reGenerate: one of them has landed recently. *)
From Coq Require Import String Reals ZArith List Bool Lia Lra.
From Flocq Require Import Core IEEE754.BinarySingleNaN.
From Verif Require Import Prelude FootPrint Doubles DoublesGen DoublesSpec DoublesProofs DoublesProofs2 DoublesProofs4 Generator TimedPlan TimedPlanSpec TimedPlanProofs2 TimedPlanProofs3 TimedPlanProofs4 TimedLoop TimedLoopSpec TimedLoopProofs RoomSpec.
Import ListNotations.
Open Scope R_scope.
Opaque fadd fsub fmul fdiv fmake f1 fm1 fpi rad.

Lemma not_le : forall x y : f64, lt64 x y -> Bleb y x = false.
Proof.
  intros x y H. destruct (lt64_number _ _ H). apply lt64_inv in H. destruct (Bleb y x) eqn:E; auto. apply le64_inv in E. lra.
Qed.
Lemma only_val : forall P (p : P) t, le64 fzero t -> t_only ieee p t = ([(p, t)], true).
Proof.
  intros P p t H. destruct (le64_number _ _ H) as (_ & N). destruct (only_ok P p t N) as (_ & _ & O). apply O in H.
  destruct (t_only ieee p t) as (f & ok) eqn:E. cbn [snd] in H. subst ok. rewrite (only_shape _ _ _ _ E). reflexivity.
Qed.
Lemma present_val : forall P (again : P -> P) init f z, stands_on f init z -> le64 fzero (snd z) ->
  t_present ieee again init f = ([(again (fst z), snd z)], true).
Proof.
  intros P again init f z (a & b & -> & H1 & H2) H0. unfold t_present. rewrite rev_app_distr. cbn [rev].
  assert (E : find (fun x : P * f64 => a_le ieee (snd x) init) ((rev b ++ [z]) ++ rev a) = Some z).
  { assert (F : forall y, In y (rev b) -> Bleb (snd y) init = false) by (intros y Hy; apply not_le; rewrite List.Forall_forall in H2; apply H2, in_rev; exact Hy).
    revert F. generalize (rev b). induction l as [|y l IH]; intros F; cbn [app find].
    - change (a_le ieee (snd z) init) with (Bleb (snd z) init). unfold le64 in H1. rewrite H1. reflexivity.
    - change (a_le ieee (snd y) init) with (Bleb (snd y) init). rewrite F by (left; auto). apply IH. intros; apply F; right; auto. }
  rewrite E. apply only_val. exact H0.
Qed.
Lemma stands_in : forall P f init (z : P * f64), stands_on f init z -> In z f /\ le64 (snd z) init.
Proof. intros P f init z (a & b & -> & H & _). split; auto. apply in_or_app. right. left. auto. Qed.

Lemma ready_recent : forall P (again : bool -> P -> P) init reset k eL eR mL mR left right l r delta z,
  fin init = true -> times_ok left -> times_ok right -> (corr_left k = true -> number mL) -> (corr_right k = true -> number mR) -> 0 <= delta ->
  f2r init - delta <= f2r (snd z) ->
  (stands_on left init z /\ (corr_left k = true -> f2r init - delta <= f2r mL))
  \/ (stands_on right init z /\ (corr_right k = true -> f2r init - delta <= f2r mR)) ->
  t_ready ieee again init reset k eL eR mL mR left right = (l, r, true) -> recent l r init delta.
Proof.
  intros P again init reset k eL eR mL mR left right l r delta z Fi TL TR NL NR D0 Hz HC E. split; auto. right.
  unfold t_ready in E.
  destruct (present_ok P (again true) init left TL) as (A1 & B1 & _). destruct (present_ok P (again false) init right TR) as (A2 & B2 & _).
  assert (HP : ((exists p, t_present ieee (again true) init left = ([(p, snd z)], true)) /\ (corr_left k = true -> f2r init - delta <= f2r mL))
    \/ ((exists p, t_present ieee (again false) init right = ([(p, snd z)], true)) /\ (corr_right k = true -> f2r init - delta <= f2r mR))).
  { destruct HC as [(S1 & HM)|(S1 & HM)]; [left|right]; (split; [|exact HM]); destruct (stands_in _ _ _ _ S1); eexists; apply present_val; auto. }
  assert (LT : le64 (snd z) init /\ le64 fzero (snd z)).
  { destruct HC as [(S1 & _)|(S1 & _)]; destruct (stands_in _ _ _ _ S1); auto. }
  destruct LT as (LT & L0).
  assert (FZ : forall t : f64, le64 fzero t -> le64 t init -> fin t = true).
  { intros t T1 T2. destruct (le64_number _ _ T1). apply le64_inv in T1. apply le64_inv in T2. apply key_number_fin with fzero init; auto. }
  assert (Fz : fin (snd z) = true) by auto.
  assert (PL : forall x, t_present ieee (again true) init left = ([x], true) -> le64 (snd x) init).
  { intros x Hx. unfold t_present in Hx. destruct (find _ (rev left)) as [y|] eqn:F; [|discriminate]. apply find_some in F. destruct F as (F1 & F2).
    unfold t_only, t_add in Hx. destruct (below0 ieee (snd y)); [discriminate|]. inversion Hx; subst. exact F2. }
  assert (PR : forall x, t_present ieee (again false) init right = ([x], true) -> le64 (snd x) init).
  { intros x Hx. unfold t_present in Hx. destruct (find _ (rev right)) as [y|] eqn:F; [|discriminate]. apply find_some in F. destruct F as (F1 & F2).
    unfold t_only, t_add in Hx. destruct (below0 ieee (snd y)); [discriminate|]. inversion Hx; subst. exact F2. }
  destruct (t_present ieee (again true) init left) as (l0 & okl). destruct (t_present ieee (again false) init right) as (r0 & okr). cbn [fst snd] in *.
  destruct okl; cbn [negb] in E; [|discriminate]. destruct okr; cbn [negb] in E; [|discriminate].
  destruct B1 as (pl & ->); auto. destruct B2 as (pr & ->); auto. cbn [last_opt] in E.
  specialize (PL pl eq_refl). specialize (PR pr eq_refl).
  assert (ZL : le64 fzero (snd pl)) by (apply A1; left; auto). assert (ZR : le64 fzero (snd pr)) by (apply A2; left; auto).
  pose proof (FZ _ ZL PL) as FL. pose proof (FZ _ ZR PR) as FR.
  set (corr := match k with CNone => reset | _ => true end) in E.
  destruct (t_edited ieee init reset k pl pr eL eR mL mR) as (el & er) eqn:EE.
  unfold t_edited in EE. injection EE as E1 E2. cbn [a_lt ieee] in E1, E2.
  assert (MX : f2r init - delta <= f2r (if Bltb (snd pl) (snd pr) then snd pr else snd pl)).
  { assert (Hzz : f2r (snd z) <= f2r (snd pl) \/ f2r (snd z) <= f2r (snd pr)) by (destruct HP as [((p & HP) & _)|((p & HP) & _)]; inversion HP; subst; cbn [snd]; [left|right]; lra).
    rewrite blt_ok by auto. rcases; destruct Hzz; lra. }
  assert (KEEP : forall (cond : bool) (p : P) t f (x : P * f64), (if cond then t_only ieee p t else @pair (tfoot f64 P) bool [x] true) = (f, true) ->
    f2r init - delta <= f2r (if cond then t else snd x) -> exists y, In y f /\ f2r init - delta <= f2r (snd y)).
  { intros cond p t f x Hf Ht. destruct cond; [apply only_shape in Hf|inversion Hf]; subst f; eexists; (split; [left; reflexivity|exact Ht]). }
  destruct (if corr && (corr_left k || reset) then t_only ieee (again true (fst el)) (snd el) else @pair (tfoot f64 P) bool [pl] true) as (l1 & ok1) eqn:O1.
  destruct ok1; cbn [negb] in E; [|discriminate].
  destruct (if corr && (corr_right k || reset) then t_only ieee (again false (fst er)) (snd er) else @pair (tfoot f64 P) bool [pr] true) as (r1 & ok2) eqn:O2.
  inversion E; subst ok2 l r. clear E.
  destruct HP as [((p & HP) & HM)|((p & HP) & HM)]; inversion HP; subst.
  - destruct (KEEP _ _ _ _ _ O1) as (y & Y1 & Y2); [|exists y; split; [apply in_or_app; auto|exact Y2]].
    cbn [fst snd] in *. destruct (corr && (corr_left k || reset)); [|exact Hz]. destruct reset; [exact MX|].
    destruct (Bltb init _ || _); [exact Hz|]. destruct (corr_left k); auto.
  - destruct (KEEP _ _ _ _ _ O2) as (y & Y1 & Y2); [|exists y; split; [apply in_or_app; auto|exact Y2]].
    cbn [fst snd] in *. destruct (corr && (corr_right k || reset)); [|exact Hz]. destruct reset; [exact MX|].
    destruct (Bltb init _ || _); [exact Hz|]. destruct (corr_right k); auto.
Qed.
