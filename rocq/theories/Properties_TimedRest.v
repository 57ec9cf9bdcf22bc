(** C99: what a failing computeNewSteps leaves behind, in IEEE doubles. *)
From Coq Require Import String Reals ZArith List Bool Lia Lra.
From Flocq Require Import Core IEEE754.BinarySingleNaN.
From Verif Require Import Prelude FootPrint Doubles DoublesGen DoublesSpec DoublesProofs DoublesProofs2 TimedPlan TimedPlanSpec
  TimedPlanProofs2 TimedPlanProofs3 TimedPlanProofs4 TimedRestProofs Properties_Doubles Properties_TimedPlan.
Import ListNotations.
Open Scope R_scope.
Opaque fadd fsub fmul fdiv fmake f1 fm1 fpi rad.

Lemma rest_plan : forall P (o : geo f64 P) calls init tend aT rs st left right n, List.Forall tame calls ->
  let c := cfg64 (settings ieee calls) init tend aT rs st in
  fin init = true -> fin tend = true -> resolves (f2r (c_dT c)) (f2r tend) -> times_ok left -> times_ok right ->
  t_plan ieee c o n left right = TFail \/ t_plan ieee c o n left right = TFuel ->
  let l' := fst (t_rest ieee c o n left right) in let r' := snd (t_rest ieee c o n left right) in
  (l' = left /\ r' = right)
  \/ exists (l r : list (P * f64)) (sw : bool) (prev : P * f64) (a b : list (P * f64)),
     started c o left right l r
     /\ last_opt (if sw then r else l) = Some prev /\ le64 (snd prev) init
     /\ (forall x, last_opt (if sw then l else r) = Some x -> le64 (snd x) (snd prev))
     /\ consecutive (follows c) (snd prev) (map snd a)
     /\ terminal_at c (snd (last a prev)) (map snd b) /\ (length b <= 1)%nat
     /\ grown l r sw (a ++ b) l' r'.
Proof.
  intros P o calls init tend aT rs st left right n T c Fi Fe Hr TL TR H.
  destruct (Rle_lt_dec 0 (key init)) as [K|K].
  - destruct (rest_steps P c o Fi Fe (nom_ok calls T)) with (n := n) (left := left) (right := right)
      as [E|(l & r & sw & prev & a & b & H1 & _ & H2 & H3 & H4 & H5 & H6 & H7 & _ & H8)]; auto.
    + apply resolves_advances; auto. apply period_fin. apply Hr.
    + right. exists l, r, sw, prev, a, b. auto 10.
  - left. rewrite rest_negative; auto using times_stored.
Qed.

(** Old steps are kept, with their times. *)
Lemma rest_prefix : forall P (o : geo f64 P) calls init tend aT rs st left right n, List.Forall tame calls ->
  let c := cfg64 (settings ieee calls) init tend aT rs st in
  fin init = true -> fin tend = true -> resolves (f2r (c_dT c)) (f2r tend) -> times_ok left -> times_ok right ->
  t_plan ieee c o n left right = TFail \/ t_plan ieee c o n left right = TFuel ->
  exists nl nr, t_rest ieee c o n left right = (left ++ nl, right ++ nr).
Proof.
  intros P o calls init tend aT rs st left right n T c Fi Fe Hr TL TR H.
  pose proof (rest_plan P o calls init tend aT rs st left right n T Fi Fe Hr TL TR H) as K. cbv zeta in K. fold c in K. clearbody c.
  destruct K as [(E1 & E2)|(l & r & sw & prev & a & b & ST & _ & _ & _ & _ & _ & _ & (G1 & G2))].
  - exists [], []. rewrite !app_nil_r, (surjective_pairing (t_rest ieee c o n left right)), E1, E2. reflexivity.
  - destruct (t_rest _ _ _ _ _ _) as (l' & r'). cbn [fst snd] in *. subst l' r'. unfold started in ST. destruct left as [|x left]; [destruct right as [|y right]|]; destruct ST as (-> & ->); [|eauto|eauto].
    exists ((o_first o true, c_init c) :: fst (dealt sw (a ++ b))), ((o_first o false, c_init c) :: snd (dealt sw (a ++ b))). reflexivity.
Qed.

Lemma rest_sound : forall P (o : geo f64 P) calls init tend aT rs st left right n, List.Forall tame calls ->
  let c := cfg64 (settings ieee calls) init tend aT rs st in
  fin init = true -> fin tend = true -> resolves (f2r (c_dT c)) (f2r tend) -> times_ok left -> times_ok right ->
  t_plan ieee c o n left right = TFail \/ t_plan ieee c o n left right = TFuel ->
  times_ok (fst (t_rest ieee c o n left right)) /\ times_ok (snd (t_rest ieee c o n left right)).
Proof.
  intros P o calls init tend aT rs st left right n T c Fi Fe Hr TL TR H.
  destruct (Rle_lt_dec 0 (key init)) as [K|K].
  - apply rest_times; auto.
    + apply nom_ok; auto.
    + destruct (v_times _ (C82_ranges calls T)) as (_ & B & _). apply le64_number in B. apply B.
    + apply resolves_advances; auto. apply period_fin. apply Hr.
  - rewrite rest_negative; auto using times_stored.
Qed.

(** C99: the foot prints are as before, or continue with a part of a plan: steps in turns, in increasing order, inside the
    horizon and not closer than the minimum step time, and at most the first of the terminal steps. *)
Theorem C99_failed_plan : forall P (o : geo f64 P) calls init tend aT rs st left right n, List.Forall tame calls ->
  let c := cfg64 (settings ieee calls) init tend aT rs st in
  fin init = true -> fin tend = true -> resolves (f2r (c_dT c)) (f2r tend) -> times_ok left -> times_ok right ->
  t_plan ieee c o n left right = TFail ->
  let l' := fst (t_rest ieee c o n left right) in let r' := snd (t_rest ieee c o n left right) in
  (l' = left /\ r' = right)
  \/ exists (l r : list (P * f64)) (sw : bool) (prev : P * f64) (a b : list (P * f64)),
     started c o left right l r
     /\ last_opt (if sw then r else l) = Some prev /\ le64 (snd prev) init
     /\ (forall x, last_opt (if sw then l else r) = Some x -> le64 (snd x) (snd prev))
     /\ consecutive (follows c) (snd prev) (map snd a)
     /\ terminal_at c (snd (last a prev)) (map snd b) /\ (length b <= 1)%nat
     /\ grown l r sw (a ++ b) l' r'.
Proof. intros. apply rest_plan; auto. Qed.
Print Assumptions C99_failed_plan.

(** Steps that were there stay, with their times. *)
Theorem C99_old_steps_stay : forall P (o : geo f64 P) calls init tend aT rs st left right n, List.Forall tame calls ->
  let c := cfg64 (settings ieee calls) init tend aT rs st in
  fin init = true -> fin tend = true -> resolves (f2r (c_dT c)) (f2r tend) -> times_ok left -> times_ok right ->
  t_plan ieee c o n left right = TFail ->
  exists nl nr, t_rest ieee c o n left right = (left ++ nl, right ++ nr).
Proof. intros. apply rest_prefix; auto. Qed.
Print Assumptions C99_old_steps_stay.

(** A geometry that has no pose for the unicycle from the fifth second on: three steps are left behind. *)
Definition lost_geo : geo f64 unit :=
  MkGeo true true true (fun _ => tt) None (fun _ _ _ _ => false) (fun _ _ _ _ _ _ => Some (Some f1)) (fun _ _ _ t => if Bltb (fmake 4 0) t then None else Some tt)
    (fun _ _ _ _ => Some false) (fun _ _ _ => Some tt) (fun _ _ _ _ _ => Some true) (fun _ x => x).
Example C99_example : let c := cfg64 (settings ieee plan_calls) fzero (fmake 6 0) true true true in
  List.Forall tame plan_calls /\ resolves (f2r (c_dT c)) (f2r (fmake 6 0)) /\ t_plan ieee c lost_geo 30 [] [] = TFail
  /\ same_times (Some (map snd (fst (t_rest ieee c lost_geo 30 [] [])), map snd (snd (t_rest ieee c lost_geo 30 [] [])))) [fzero; fmake 3 0] [fzero] = true.
Proof.
  intros c. split; [|split].
  - apply C87_hypotheses_example.
  - apply C87_hypotheses_example.
  - split; vm_compute; reflexivity.
Qed.
