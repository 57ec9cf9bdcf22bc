(** The search of computeNewSteps in binary64 arithmetic: termination, the steps of a plan. *)
From Coq Require Import String Reals ZArith List Bool Lia Lra.
From Flocq Require Import Core IEEE754.BinarySingleNaN.
From Verif Require Import Prelude Rounding FootPrint GenPhases RoundedGen RoundedGenSpec RoundedGenProofs2 RoundedGenProofs3
  Doubles DoublesGen DoublesSpec DoublesProofs TimedPlan TimedPlanSpec TimedPlanProofs2.
Import ListNotations.
Open Scope R_scope.
Opaque fadd fsub fmul fdiv fmake f1 fm1 fpi.

(** ** Termination *)
Section Measure.
Variable P : Type.
Variable c : tcfg f64.
Variable o : geo f64 P.
Hypothesis Fi : fin (c_init c) = true.
Hypothesis Fe : fin (c_end c) = true.
Hypothesis Hi : 0 <= key (c_init c).
Hypothesis Hie : key (c_init c) < key (c_end c).
Hypothesis Hadv : advances (c_dT c) (c_init c) (c_end c).

Definition width : R := key (c_end c) - key (c_init c).
Definition measure (s : tst f64 P) : R :=
  (key (c_end c) - key (snd (t_prev s))) * ((width + eta) / eta) + (key (c_end c) - key (t_t s)).

Lemma key_gap : forall x y, fin x = true -> fin y = true -> key x < key y -> key x + eta <= key y.
Proof. intros x y Fx Fy H. rewrite !key_fin in * by auto. apply gap; auto. Qed.
Lemma old_le : forall s, inv P c s -> key (snd (t_prev s)) <= key (c_end c).
Proof.
  intros s I. destruct (i_old _ _ s I) as [E|(_ & _ & E & _)]; auto. rewrite E. change (key fnan) with 0. lra.
Qed.
Lemma factor : 0 < (width + eta) / eta /\ eta * ((width + eta) / eta) = width + eta.
Proof.
  pose proof eta_pos. unfold width. split.
  - apply Rdiv_lt_0_compat; lra.
  - field. lra.
Qed.
Lemma run_fuel : forall n s, inv P c s -> (le64 (t_t s) (c_end c) -> measure s + eta <= INR n * eta) ->
  t_run ieee c o n s <> TLFuel.
Proof.
  pose proof eta_pos as EP. destruct factor as (K0 & K1).
  induction n as [|n IH]; intros s I M; simpl; destruct (Bleb (t_t s) (c_end c)) eqn:L; try discriminate.
  - exfalso. specialize (M L). pose proof (old_le s I). apply le64_inv in L. unfold measure in M. simpl in M.
    assert (0 <= (key (c_end c) - key (snd (t_prev s))) * ((width + eta) / eta)) by (apply Rmult_le_pos; lra). lra.
  - specialize (M L). destruct (t_iter ieee c o s) as [s'| |] eqn:E; try discriminate.
    destruct (iter_inv P c o Fi Fe Hi Hie Hadv s s' I L E) as (I' & s1 & _ & Cs & _ & _ & _ & EP1 & A & B & C).
    apply IH; auto. intros L'. apply le64_inv in L. apply le64_inv in L'.
    assert (F' : fin (t_t s') = true).
    { apply key_number_fin with (c_init c) (c_end c); auto; [apply (i_t _ _ s' I')|lra]. }
    rewrite S_INR in M. unfold measure in *. rewrite EP1.
    destruct Cs as [(_ & _ & _ & Q4 & Q5 & _)|(p & t & _ & _ & Q3 & Q4 & (N1 & N2 & N3 & N4 & N5 & _) & _)].
    + rewrite Q4. rewrite Q5 in *.
      assert (F : fin (t_t s) = true) by (apply key_number_fin with (c_init c) (c_end c); auto; apply (i_t _ _ s I)).
      pose proof (key_gap _ _ F F' A). lra.
    + rewrite Q3. simpl. rewrite Q4 in *.
      destruct (i_old _ _ s I) as [X|(_ & X & X' & _)]; [contradiction|].
      assert (G : key (snd (t_prev s)) + eta <= key t).
      { apply key_gap; auto; [apply key_number_fin with fzero (c_end c)|apply key_number_fin with (c_init c) (c_end c)]; auto; lra. }
      assert ((key (c_end c) - key t) * ((width + eta) / eta) <= (key (c_end c) - key (snd (t_prev s))) * ((width + eta) / eta) - (width + eta)).
      { rewrite <- K1 at 3. replace ((key (c_end c) - key (snd (t_prev s))) * ((width + eta) / eta) - eta * ((width + eta) / eta))
          with ((key (c_end c) - key (snd (t_prev s)) - eta) * ((width + eta) / eta)) by ring.
        apply Rmult_le_compat_r; lra. }
      assert (key (c_end c) - key (t_t s') <= width) by (unfold width; lra). lra.
Qed.
Lemma run_ends : forall s, inv P c s -> exists n0, forall n, (n0 <= n)%nat -> t_run ieee c o n s <> TLFuel.
Proof.
  intros s I. pose proof eta_pos as EP. destruct (archimed ((measure s + eta) / eta)) as (A & _).
  exists (Z.to_nat (up ((measure s + eta) / eta))). intros n H. apply run_fuel; auto. intros L.
  apply Rmult_le_reg_r with (/ eta); [apply Rinv_0_lt_compat; auto|]. rewrite Rmult_assoc, Rinv_r, Rmult_1_r by lra.
  change ((measure s + eta) / eta <= INR n). rewrite INR_IZR_INZ. apply Rle_trans with (IZR (up ((measure s + eta) / eta))); [lra|].
  apply IZR_le. lia.
Qed.

(** ** The steps *)
Lemma dealt_cons : forall X sw (x : X) l, dealt sw (x :: l) =
  if sw then (x :: fst (dealt (negb sw) l), snd (dealt (negb sw) l)) else (fst (dealt (negb sw) l), x :: snd (dealt (negb sw) l)).
Proof. intros X sw x l. simpl. destruct (dealt (negb sw) l). destruct sw; auto. Qed.
Lemma grown_cons : forall (l r : list (P * f64)) sw p t l1 r1 new l' r', t_step ieee sw l r p t = Some (l1, r1) ->
  grown l1 r1 (negb sw) new l' r' -> grown l r sw ((p, t) :: new) l' r'.
Proof.
  intros l r sw p t l1 r1 new l' r' H (G1 & G2). unfold grown. rewrite dealt_cons. unfold t_step, t_add in H.
  destruct sw; destruct (below0 ieee t); inversion H; subst; simpl; rewrite <- ?app_assoc; auto.
Qed.
Lemma last_cons : forall X (l : list X) a d, last l a = last (a :: l) d.
Proof. intros X l. induction l as [|x l IH]; intros a d; auto. simpl in *. destruct l; auto. Qed.
Lemma run_steps : forall n s s', inv P c s -> t_run ieee c o n s = TLDone s' -> exists new,
  grown (t_left s) (t_right s) (t_sw s) new (t_left s') (t_right s') /\ t_sw s' = turn (t_sw s) new /\
  consecutive (placeable c) (snd (t_prev s)) (map snd new) /\ t_prev s' = last new (t_prev s) /\ inv P c s'.
Proof.
  induction n as [|n IH]; intros s s' I H; simpl in H; destruct (Bleb (t_t s) (c_end c)) eqn:L; try discriminate.
  - inversion H; subst. exists []. unfold grown. simpl. rewrite !app_nil_r. auto 10.
  - destruct (t_iter ieee c o s) as [s2| |] eqn:E; try discriminate.
    destruct (iter_inv P c o Fi Fe Hi Hie Hadv s s2 I L E) as (I' & s1 & _ & Cs & E1 & E2 & E3 & E4 & _).
    destruct (IH _ _ I' H) as (new & G1 & G2 & G3 & G4 & G5). rewrite E1, E2, E3 in *. rewrite E4 in *.
    destruct Cs as [(Q1 & Q2 & Q3 & Q4 & _)|(p & t & Q1 & Q2 & Q3 & Q4 & Q5 & _)].
    + rewrite Q1, Q2, Q3, Q4 in *. exists new. auto.
    + rewrite Q2, Q3 in *. exists ((p, t) :: new). split; [apply (grown_cons _ _ _ _ _ _ _ _ _ _ Q1 G1)|].
      split; [exact G2|]. split; [split; [exact Q5|exact G3]|]. split; auto.
      rewrite G4. apply last_cons.
  - inversion H; subst. exists []. unfold grown. simpl. rewrite !app_nil_r. auto 10.
Qed.
End Measure.
