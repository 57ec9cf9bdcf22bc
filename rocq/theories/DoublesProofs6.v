(** Phases for doubles: histories of settings, sorting, and what NaN and tiny sampling periods do. *)
From Coq Require Import String Reals ZArith List Bool Lia Lra Sorting.Sorted Sorting.Permutation.
From Flocq Require Import Core IEEE754.BinarySingleNaN.
From Verif Require Import Prelude Rounding FootPrint GenPhases GenSpec GenProofs2 RoundedGen RoundedGenSpec RoundedGenProofs2 RoundedGenProofs3 RoundedGenProofs4
  Doubles DoublesGen DoublesSpec DoublesProofs DoublesProofs2 DoublesProofs3 DoublesProofs4 DoublesProofs5.
Import ListNotations.
Open Scope R_scope.
Opaque fadd fsub fmul fdiv fmake f1 fm1 fpi.

(** The generator's settings are finite. *)
Definition gfields : list field := [q_share; q_terminal; q_maxStep; q_nomStep; q_mergeB; q_mergeE].
Lemma upd_fin : forall s q v, (forall p, In p gfields -> fin (s p) = true) -> (In q gfields -> fin v = true) ->
  forall p, In p gfields -> fin (upd s q v p) = true.
Proof. intros s q v H V p Hp. unfold upd. destruct (field_eq_dec p q); subst; auto. Qed.
Ltac nofield := let H := fresh in intros H; exfalso; unfold gfields in H; simpl in H; repeat (destruct H as [H|H]; [discriminate H|]); exact H.
Lemma gen_fin_step : forall c s, finite_args c -> (forall p, In p gfields -> fin (s p) = true) ->
  forall p, In p gfields -> fin (fst (setv ieee c s) p) = true.
Proof.
  intros c s F I. unfold finite_args in F.
  destruct c; cbn [args In] in F; cbn [setv];
  repeat match goal with |- context [if ?b then _ else _] => lazymatch b with
    | field_eq_dec _ _ => fail | _ => let E := fresh "E" in destruct b eqn:E end end; cbn [fst]; try exact I;
  repeat (apply upd_fin; [first [exact I|idtac]|first [nofield|intros _; argfin|idtac]]).
  intros _. cbn [a_div a_add ieee]. rewrite c1_one. assert (Fr : fin r = true) by argfin.
  rewrite (rep_atmost r (f2r r)) in E by (split; auto). unfold atmost0 in E. rewrite c0_rn in E. apply Rleb_false in E.
  apply share_ok; auto.
Qed.
Lemma gen_fin_init : forall p, In p gfields -> fin (initv ieee p) = true.
Proof.
  intros p H. unfold gfields in H. simpl in H.
  repeat (destruct H as [H|H]; [subst p; unfold initv, c1; apply q_ok; lia|]). contradiction.
Qed.
Lemma gen_fin : forall l, List.Forall finite_args l -> forall p, In p gfields -> fin (settings ieee l p) = true.
Proof.
  intros l H. unfold settings. generalize gen_fin_init. generalize (initv ieee).
  induction H; simpl; auto. intros s V. apply IHForall. intros p Hp. apply gen_fin_step; auto.
Qed.
Lemma gset_settings : forall l b, List.Forall finite_args l ->
  gset_of (fun q => f2r (settings ieee l q)) b = settings64 (gops (map (map_setter f2r) l) ++ [GoPauseActive b]).
Proof.
  intros l b H. rewrite <- gset_history. unfold gset_of.
  rewrite !(fun q Hq => history_agrees l H q (gen_fin l H q Hq)) by (unfold gfields; simpl; tauto). reflexivity.
Qed.

(** Foot prints. *)
Lemma nfoot_at : forall x, nfoot_of (foot_at x) = x.
Proof.
  intros [l n]. unfold nfoot_of, foot_at. cbn [nf_steps nf_name fp_steps fp_name]. rewrite map_map. f_equal.
  rewrite <- (map_id l) at 2. apply map_ext. intros [t m]. reflexivity.
Qed.
Lemma nstep_at : forall t, nstep_of (step_at t) = t.
Proof. intros []. reflexivity. Qed.
Lemma nsteps_at : forall l, map nstep_of (map step_at l) = l.
Proof. intros l. rewrite map_map. rewrite <- (map_id l) at 2. apply map_ext, nstep_at. Qed.
Lemma tag_at : forall l b i, tag_from b i (map (fun s => MkStep vzero 0 (fst s) (snd s)) l) = map step_at (n_tag b i l).
Proof. induction l as [|(t & n) l IH]; intros b i; [reflexivity|]. cbn [map tag_from n_tag]. rewrite IH. reflexivity. Qed.
Lemma all_at : forall l r, all_steps (fp_steps (foot_at l)) (fp_steps (foot_at r)) = map step_at (n_all (nf_steps l) (nf_steps r)).
Proof. intros l r. unfold all_steps, n_all. cbn [foot_at fp_steps]. rewrite !tag_at, map_app. reflexivity. Qed.
Lemma n_tag_map : forall {M N : Type} (f : M -> N) l b i, map (map_nstep f) (n_tag b i l) = n_tag b i (map (fun s => (f (fst s), snd s)) l).
Proof. induction l as [|(t & n) l IH]; intros b i; [reflexivity|]. cbn [map n_tag]. rewrite IH. reflexivity. Qed.
Lemma n_all_map : forall {M N : Type} (f : M -> N) l r,
  map (map_nstep f) (n_all (nf_steps l) (nf_steps r)) = n_all (nf_steps (map_nfoot f l)) (nf_steps (map_nfoot f r)).
Proof. intros M N f l r. unfold n_all. rewrite map_app, !n_tag_map. reflexivity. Qed.
Lemma in_tag : forall {N : Type} (l : list (N * string)) b i t, In t (n_tag b i l) -> In (n_time t, n_name t) l.
Proof.
  induction l as [|(x & n) l IH]; intros b i t H; [contradiction|]. destruct H as [<-|H]; [left; reflexivity|right; eauto].
Qed.
Lemma in_all : forall {N : Type} (l r : list (N * string)) t, In t (n_all l r) -> In (n_time t, n_name t) (l ++ r).
Proof. intros N l r t H. apply in_app_or in H. apply in_or_app. destruct H as [H|H]; [left|right]; eapply in_tag; eauto. Qed.

(** The binary64 run is the rounded run. *)
Lemma refines : forall l pause left right init dT srt B, List.Forall finite_args l ->
  in_scope (settings ieee l) left right init dT B ->
  (forall t, In t srt -> In t (n_all (nf_steps left) (nf_steps right))) ->
  rmap (fun o => (map (map_nstep f2r) (fst o), snd o)) (n_generate ieee (settings ieee l) pause left right init dT srt)
  = rmap strip (generate_phases_r b64 (settings64 (gops (map (map_setter f2r) l) ++ [GoPauseActive pause]))
      (real_foot left) (real_foot right) (f2r init) (f2r dT) (map real_step srt)).
Proof.
  intros l pause left right init dT srt B H [D (D2 & DB) (I1 & I2) T HT] Hs. destruct D as (D0 & D1 & D1').
  rewrite <- (gset_settings l pause H). rewrite <- generate_rn.
  unfold real_foot, real_step. rewrite !nfoot_at. rewrite <- (map_map (map_nstep f2r) step_at), nsteps_at.
  symmetry. apply (generate_ieee (settings ieee l) pause dT B); auto.
  - rewrite gset_settings by auto. apply good64. apply Forall_app. split; [apply gops_b64; auto|repeat constructor].
  - apply (gen_fin l H).
  - apply Forall_forall. intros t Ht. apply (T (n_time t, n_name t)). apply in_all, Hs, Ht.
Qed.

(** A sorted arrangement of the steps is sorted as reals. *)
Lemma sorted_real : forall left right srt,
  (forall x, In x (nf_steps left ++ nf_steps right) -> fin (fst x) = true) -> sorted64 left right srt ->
  sort_result (fp_steps (real_foot left)) (fp_steps (real_foot right)) (map real_step srt).
Proof.
  intros left right srt F (P & Q). split.
  - unfold real_foot. rewrite all_at, <- n_all_map. unfold real_step. rewrite <- (map_map (map_nstep f2r) step_at).
    apply Permutation_map, Permutation_map, P.
  - assert (A : forall t, In t srt -> fin (n_time t) = true).
    { intros t Ht. apply (F (n_time t, n_name t)). apply in_all. eapply Permutation_in; eauto. }
    clear P. induction Q as [|a r Q1 IH Q2]; [constructor|]. cbn [map]. constructor; [apply IH; intros; apply A; simpl; auto|].
    apply Forall_forall. intros y Hy. apply in_map_iff in Hy. destruct Hy as (b & <- & Hb).
    rewrite Forall_forall in Q2. specialize (Q2 b Hb). rewrite blt_ok in Q2 by (apply A; simpl; auto). apply Rltb_false in Q2. exact Q2.
Qed.

(** ** Sorting *)
Lemma numbers_ordered : forall l, (forall x, In x l -> number x) -> strict_weak_order (@Bltb 53 1024) l.
Proof.
  intros l H. repeat split.
  - intros x Hx. rewrite blt_key by auto. rcases; auto; lra.
  - intros x y z Hx Hy Hz A B. rewrite blt_key in * by auto. apply Rltb_true in A. apply Rltb_true in B. apply Rltb_true. lra.
  - rewrite !blt_key in * by auto. apply Rltb_false in H3. apply Rltb_false in H4. apply Rltb_false in H5. apply Rltb_false in H6. apply Rltb_false. lra.
  - rewrite !blt_key in * by auto. apply Rltb_false in H3. apply Rltb_false in H4. apply Rltb_false in H5. apply Rltb_false in H6. apply Rltb_false. lra.
Qed.

(** ** Undefined conversions *)
Lemma div_nan : forall x : f64, fdiv x fnan = fnan.
Proof. intros [s|s| |s m e H]; reflexivity. Qed.
Lemma mul_nan : forall x : f64, fmul fnan x = fnan.
Proof. intros [s|s| |s m e H]; reflexivity. Qed.
Lemma nan_div : forall x : f64, fdiv fnan x = fnan.
Proof. intros [s|s| |s m e H]; reflexivity. Qed.
Lemma create_nan_dT : forall S pause init nl nr fl fr ord, n_create ieee S pause fnan init nl nr fl fr ord = UB.
Proof.
  intros S pause init nl nr fl fr [|a [|b [|c l]]]; try reflexivity; unfold n_create; cbn [a_div ieee]; rewrite div_nan; reflexivity.
Qed.
(** No sampling period that is NaN is refused before the conversions. *)
Lemma nan_dT : forall S pause (left right : nfoot f64) (init : f64) srt ord,
  nf_steps left <> [] -> nf_steps right <> [] -> nf_name left <> nf_name right ->
  (forall (tl : f64) nl ll (tr : f64) nr rr, nf_steps left = (tl, nl) :: ll -> nf_steps right = (tr, nr) :: rr ->
     Bltb init (if Bltb tl tr then tr else tl) = false) ->
  n_order ieee srt = Ok ord ->
  n_generate ieee S pause left right init fnan srt = UB.
Proof.
  intros S pause [sl nl] [sr nr] init srt ord HL HR HN HI HO. cbn [nf_steps nf_name] in *. unfold n_generate. cbn [nf_steps nf_name].
  destruct sl as [|(tl & ml) ll]; [contradiction|]. destruct sr as [|(tr & mr) rr]; [contradiction|].
  cbn [length Nat.ltb Nat.leb]. destruct (String.eqb_spec nl nr); [contradiction|].
  assert (Q1 : atmost0 ieee fnan = false) by reflexivity. rewrite Q1.
  assert (Q2 : a_lt ieee init (if a_lt ieee tl tr then tr else tl) = false) by (apply (HI tl ml ll tr mr rr); auto). rewrite Q2.
  rewrite HO. cbn [rbind]. rewrite create_nan_dT. reflexivity.
Qed.
(** A share that is NaN makes every switch time NaN. *)
Lemma nan_sub : forall x : f64, fsub fnan x = fnan.
Proof. intros [s|s| |s m e H]; reflexivity. Qed.
Lemma sub_nan : forall x : f64, fsub x fnan = fnan.
Proof. intros [s|s| |s m e H]; reflexivity. Qed.
Lemma nan_switch : forall (s : field -> f64) pause b1 b2 t, s q_share = fnan -> n_switch ieee s pause b1 b2 t = fnan.
Proof.
  intros s pause b1 b2 t E. unfold n_switch, n_swing. cbn [a_div a_mul a_sub ieee]. rewrite E.
  destruct (b1 && negb b2); [rewrite !nan_div; reflexivity|].
  destruct (pause && _); [rewrite mul_nan, !sub_nan; auto|apply mul_nan].
Qed.
Lemma fround_cases : forall x, (exists n, fround x = Ok n) \/ fround x = UB.
Proof. intros x. unfold fround, to_size64. destruct (fin x); [|auto]. destruct (_ || _); eauto. Qed.
Lemma fceil_cases : forall x, (exists n, fceil x = Ok n) \/ fceil x = UB.
Proof. intros x. unfold fceil, to_size64. destruct (fin x); [|auto]. destruct (_ || _); eauto. Qed.
Lemma nan_share_step : forall (s : field -> f64) pause dT nl nr sf k nx st, s q_share = fnan ->
  below0 ieee (fsub (n_time nx) (x_prev st)) = false -> n_step1 ieee s pause dT nl nr sf k nx st = UB.
Proof.
  intros s pause dT nl nr sf k nx st E Hb. unfold n_step1. cbn [a_sub ieee]. rewrite Hb. rewrite nan_switch by auto.
  cbn [a_round a_div ieee]. rewrite nan_div. destruct (fround_cases (fdiv (fsub (n_time nx) (x_prev st)) dT)) as [(n & ->)| ->]; reflexivity.
Qed.
Lemma nan_share : forall (s : field -> f64) pause (left right : nfoot f64) (init dT : f64) srt a b c l,
  s q_share = fnan ->
  nf_steps left <> [] -> nf_steps right <> [] -> nf_name left <> nf_name right -> Bleb dT fzero = false ->
  (forall (tl : f64) nl ll (tr : f64) nr rr, nf_steps left = (tl, nl) :: ll -> nf_steps right = (tr, nr) :: rr ->
     Bltb init (if Bltb tl tr then tr else tl) = false) ->
  n_order ieee srt = Ok (a :: b :: c :: l) -> Bltb (fsub (n_time c) init) fzero = false ->
  n_generate ieee s pause left right init dT srt = UB.
Proof.
  intros s pause [sl nl] [sr nr] init dT srt a b c l E HL HR HN HD HI HO HB. cbn [nf_steps nf_name] in *. unfold n_generate. cbn [nf_steps nf_name].
  destruct sl as [|(tl & ml) ll]; [contradiction|]. destruct sr as [|(tr & mr) rr]; [contradiction|].
  cbn [length Nat.ltb Nat.leb]. destruct (String.eqb_spec nl nr); [contradiction|].
  assert (Q1 : atmost0 ieee dT = false) by (unfold atmost0; rewrite c0_zero; exact HD). rewrite Q1.
  assert (Q2 : a_lt ieee init (if a_lt ieee tl tr then tr else tl) = false) by (apply (HI tl ml ll tr mr rr); auto). rewrite Q2.
  rewrite HO. cbn [rbind]. unfold n_create.
  destruct (fceil_cases (a_div ieee (a_add ieee (a_sub ieee (n_time (last (c :: l) b)) init) (s q_terminal)) dT)) as [(n0 & Hn)|Hn];
  [|unfold a_ceil; cbn [ieee]; rewrite Hn; reflexivity].
  unfold a_ceil; cbn [ieee]; rewrite Hn. cbn [rbind]. cbn [n_loop]. rewrite nan_share_step; auto.
Qed.
(** addStep adds no other times. *)
Lemma built_in : forall ts name x, In x (nf_steps (built ts name)) -> In (fst x) ts.
Proof.
  intros ts name x. unfold built.
  assert (Q : forall f, In x (nf_steps (fold_left (fun f t => fst (n_addStep ieee t f)) ts f)) -> In x (nf_steps f) \/ In (fst x) ts).
  { induction ts as [|t ts IH]; intros f H; [auto|]. cbn [fold_left] in H. apply IH in H. destruct H as [H|H]; [|simpl; auto].
    unfold n_addStep in H. destruct (below0 ieee t); cbn [fst nf_steps] in H; [auto|].
    apply in_app_or in H. destruct H as [H|[<-|[]]]; simpl; auto. }
  intros H. apply Q in H. destruct H as [[]|H]; auto.
Qed.
Lemma built_ok : forall ts name, (forall t, In t ts -> Bltb t fzero = false) -> nf_steps (built ts name) = map (fun t => (t, name)) ts.
Proof.
  intros ts name H. unfold built.
  assert (Q : forall f, nf_name f = name -> nf_steps (fold_left (fun f t => fst (n_addStep ieee t f)) ts f) = nf_steps f ++ map (fun t => (t, name)) ts).
  { induction ts as [|t ts IH]; intros f Hf; [symmetry; apply app_nil_r|]. cbn [fold_left map]. rewrite IH.
    - unfold n_addStep, below0. rewrite c0_zero. cbn [a_lt ieee]. rewrite H by (simpl; auto). cbn [fst nf_steps]. rewrite <- app_assoc, Hf. reflexivity.
    - intros x Hx. apply H. simpl. auto.
    - unfold n_addStep. destruct (below0 ieee t); auto. }
  rewrite Q; reflexivity.
Qed.
Lemma number_of : forall x : f64, is_nan x = false -> number x.
Proof. intros x H E. rewrite E in H. discriminate. Qed.
Opaque rad le64 lt64 number.
Lemma valid_number : forall s q, valid s -> number (s q).
Proof.
  intros s q []. assert (N1 : number fm1) by (apply number_of; vm_compute; reflexivity).
  assert (L : forall x y, le64 x y -> number x /\ number y) by (intros x y H; apply le64_number; exact H).
  assert (L2 : forall x y, lt64 x y -> number x /\ number y) by (intros x y H; apply lt64_number; exact H).
  assert (D : forall (x : f64) (P : Prop), x = fm1 \/ P -> (P -> number x) -> number x) by (intros x P [->|H] K; auto).
  assert (D2 : forall x, x = fm1 \/ le64 fzero x -> number x) by (intros x H; apply (D _ _ H); intros; eapply L; eauto).
  destruct q;
  repeat match goal with H : _ /\ _ |- _ => destruct H end;
  first [ match goal with H : number ?x |- number ?x => exact H end
        | match goal with H : le64 _ ?x |- number ?x => exact (proj2 (L _ _ H)) end
        | match goal with H : le64 ?x _ |- number ?x => exact (proj1 (L _ _ H)) end
        | match goal with H : lt64 _ ?x |- number ?x => exact (proj2 (L2 _ _ H)) end
        | match goal with H : ?x = fm1 \/ le64 fzero ?x |- number ?x => exact (D2 _ H) end
        | match goal with H : ?x = fm1 \/ _ |- number ?x => apply (D _ _ H); intros (K & _); exact (proj2 (L _ _ K)) end
        | idtac ].
Qed.
