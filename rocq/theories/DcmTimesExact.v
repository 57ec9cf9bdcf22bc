(** With exact arithmetic the times of DcmTimes.v are those of the DCM generator of DCM.v. *)
From Coq Require Import String Reals ZArith List Bool Lia Lra.
From Verif Require Import Prelude Rounding FootPrint GenPhases ZMP DCM Doubles DoublesProofs3 DoublesProofs4 DcmTimes.
Import ListNotations.
Open Scope R_scope.

Definition dom (s : sub) : kdom R := (sub_t0 s, sub_t1 s).
Definition same {X Y : Type} (f : X -> Y) (r : res X) (k : res Y) : Prop := k = rmap f r.
Lemma half_reals : forall dT, k_half reals dT = dT / 2.
Proof. intros. unfold k_half. cbn [a_div a_q reals]. lra. Qed.
Lemma mk_reals : forall om a b, k_mk reals om a b = if asserted a b om then Ok (a, b) else UB.
Proof. intros. unfold k_mk, asserted. cbn [a_le a_lt reals]. rewrite c0_reals. reflexivity. Qed.
Lemma check_reals : forall {X : Type} dT a b t (x : X), k_check reals dT (a, b) t = rmap (fun _ => tt) (checked a b t (dT / 2) x).
Proof.
  intros. unfold k_check, k_in, checked, in_domain, Rgeb. cbn [fst snd a_le a_sub a_add reals]. rewrite half_reals.
  destruct (Rleb (a - dT / 2) t && Rleb t (b + dT / 2)); reflexivity.
Qed.
Section Exact.
Variable c : dcfg.
Variable Z : ztimes.
Variable dT : R.
Notation om := (dc_om c).
Notation kmk := (k_mk reals om).
Notation kch := (k_check reals dT).
Lemma ss_exact : forall a b z p, kmk a b = rmap (fun s => (ss_t0 s, ss_t1 s)) (mk_ss a b om z p).
Proof. intros. rewrite mk_reals. unfold mk_ss. destruct (asserted a b om); reflexivity. Qed.
Lemma mk3_exact : forall ta pa va tb pb vb, kmk ta tb = rmap dom (mk_3 (MkD ta pa va) (MkD tb pb vb) om).
Proof. intros. rewrite mk_reals. unfold mk_3. destruct (asserted _ _ om); reflexivity. Qed.
Lemma first_exact : forall a tb pb vb, kmk (d_t a) tb = rmap dom (mk_first c a (MkD tb pb vb)).
Proof. intros. unfold mk_first. destruct (dc_five c); [|destruct a; apply mk3_exact]. rewrite mk_reals. unfold mk_5. destruct (asserted _ _ om); reflexivity. Qed.
Lemma still_exact : forall t1 t2, k_still reals (dc_still c) t1 t2 = t1 + (t2 - t1) * (1 - dc_still c).
Proof. intros. unfold k_still. cbn [a_add a_mul a_sub a_q reals]. f_equal. f_equal. lra. Qed.
Lemma max_exact : forall x y, (if Rltb x y then y else x) = Rmax x y.
Proof. intros. unfold Rltb. destruct (Rlt_dec x y); [rewrite Rmax_right; lra|rewrite Rmax_left; lra]. Qed.
Lemma pauses_exact : forall x, k_pauses reals (z_pause Z) (z_max Z) (z_nom Z) (z_end Z) x = ds_pauses Z x.
Proof. intros. unfold k_pauses, ds_pauses, Rgtb. cbn [a_lt a_add reals]. rewrite max_exact. reflexivity. Qed.
Lemma zmp_exact : forall s, k_zmp (st_name s) = rmap (fun _ => tt) (zmp_at c s).
Proof. intros s. unfold k_zmp, zmp_at. destruct (String.eqb (st_name s) "left"); [reflexivity|]. destruct (String.eqb (st_name s) "right"); reflexivity. Qed.
(** A list whose head is a single support, as next_ss requires. *)
Definition headed (tr : list sub) : Prop := match tr with SubS _ :: _ => True | _ => False end.

Lemma last_exact : forall t0 t1 t2 z b f, d_t b = t1 ->
  k_last reals om (dc_still c) dT t0 t1 t2 = rmap (map dom) (add_last c dT t0 t1 t2 z b f [])
  /\ forall tr, add_last c dT t0 t1 t2 z b f [] = Ok tr -> headed tr.
Proof.
  intros t0 t1 t2 z b f Hb. unfold k_last, add_last. rewrite (ss_exact t0 t1 z b), !still_exact.
  set (tm := t1 + (t2 - t1) * (1 - dc_still c)).
  destruct (mk_ss t0 t1 om z b) as [s| |]; cbn [rbind rmap]; try (split; [reflexivity|discriminate]).
  rewrite (check_reals dT (ss_t0 s) (ss_t1 s) t1 (ss_vel s t1)).
  destruct (checked (ss_t0 s) (ss_t1 s) t1 (dT / 2) (ss_vel s t1)) as [v| |]; cbn [rbind rmap]; try (split; [reflexivity|discriminate]).
  rewrite (mk3_exact tm f vzero t2 f vzero).
  destruct (mk_3 (MkD tm f vzero) (MkD t2 f vzero) om) as [x| |]; cbn [rbind rmap]; try (split; [reflexivity|discriminate]).
  rewrite (mk3_exact t1 (d_p b) v tm f vzero).
  destruct (mk_3 (MkD t1 (d_p b) v) (MkD tm f vzero) om) as [y| |]; cbn [rbind rmap]; try (split; [reflexivity|discriminate]).
  split; [reflexivity|]. intros tr E. injection E as <-. exact Logic.I.
Qed.
Lemma checked_ok : forall {X Y : Type} a b t tol (x : X) (y : Y),
  match checked a b t tol x, checked a b t tol y with Ok _, Ok _ => True | Fail, Fail => True | _, _ => False end.
Proof. intros. unfold checked. destruct (in_domain a b t tol); auto. Qed.
Lemma new_exact : forall t0 t1 z b tr, headed tr ->
  k_new reals om dT (z_pause Z) (z_max Z) (z_nom Z) (z_end Z) t0 t1 (map dom tr) = rmap (map dom) (add_new c Z dT t0 t1 z b tr)
  /\ forall tr', add_new c Z dT t0 t1 z b tr = Ok tr' -> headed tr'.
Proof.
  intros t0 t1 z b tr Hh. unfold k_new, add_new. rewrite (ss_exact t0 t1 z b).
  destruct (mk_ss t0 t1 om z b) as [s| |]; cbn [rbind rmap]; try (split; [reflexivity|discriminate]).
  destruct tr as [|[nx| |] r]; try contradiction. cbn [map next_ss rbind].
  rewrite (check_reals dT (ss_t0 s) (ss_t1 s) t1 (ss_pos s t1)).
  pose proof (checked_ok (ss_t0 s) (ss_t1 s) t1 (dT / 2) (ss_pos s t1) (ss_vel s t1)) as K1.
  destruct (checked (ss_t0 s) (ss_t1 s) t1 (dT / 2) (ss_pos s t1)) as [p1| |]; cbn [rbind rmap]; try (split; [reflexivity|discriminate]).
  destruct (checked (ss_t0 s) (ss_t1 s) t1 (dT / 2) (ss_vel s t1)) as [v1| |]; try contradiction. cbn [rbind].
  change (fst (dom (SubS nx))) with (ss_t0 nx). change (dom (SubS nx)) with (ss_t0 nx, ss_t1 nx).
  rewrite (check_reals dT (ss_t0 nx) (ss_t1 nx) (ss_t0 nx) (ss_pos nx (ss_t0 nx))).
  pose proof (checked_ok (ss_t0 nx) (ss_t1 nx) (ss_t0 nx) (dT / 2) (ss_pos nx (ss_t0 nx)) (ss_vel nx (ss_t0 nx))) as K2.
  destruct (checked (ss_t0 nx) (ss_t1 nx) (ss_t0 nx) (dT / 2) (ss_pos nx (ss_t0 nx))) as [p2| |]; cbn [rbind rmap]; try (split; [reflexivity|discriminate]).
  destruct (checked (ss_t0 nx) (ss_t1 nx) (ss_t0 nx) (dT / 2) (ss_vel nx (ss_t0 nx))) as [v2| |]; try contradiction. cbn [rbind].
  unfold k_between. rewrite pauses_exact. cbn [a_sub a_add reals]. destruct (ds_pauses Z (ss_t0 nx - t1)).
  - set (m := mid z (ss_zmp nx)). set (ta := t1 + z_end Z). set (tb := ss_t0 nx - z_nom Z).
    rewrite (mk3_exact tb m vzero (ss_t0 nx) p2 v2). destruct (mk_3 (MkD tb m vzero) (MkD (ss_t0 nx) p2 v2) om) as [x3| |]; cbn [rbind rmap]; try (split; [reflexivity|discriminate]).
    rewrite (mk3_exact ta m vzero tb m vzero). destruct (mk_3 (MkD ta m vzero) (MkD tb m vzero) om) as [x2| |]; cbn [rbind rmap]; try (split; [reflexivity|discriminate]).
    rewrite (mk3_exact t1 p1 v1 ta m vzero). destruct (mk_3 (MkD t1 p1 v1) (MkD ta m vzero) om) as [x1| |]; cbn [rbind rmap]; try (split; [reflexivity|discriminate]).
    split; [reflexivity|]. intros tr' E. injection E as <-. exact Logic.I.
  - rewrite (mk3_exact t1 p1 v1 (ss_t0 nx) p2 v2). destruct (mk_3 (MkD t1 p1 v1) (MkD (ss_t0 nx) p2 v2) om) as [x| |]; cbn [rbind rmap]; try (split; [reflexivity|discriminate]).
    split; [reflexivity|]. intros tr' E. injection E as <-. exact Logic.I.
Qed.
Lemma addfirst_exact : forall a sw tr, d_t a = 0 -> headed tr ->
  k_first reals om dT (z_pause Z) (z_max Z) (z_nom Z) (z_end Z) (st_name sw) (map dom tr) = rmap (map dom) (add_first c Z dT a sw tr).
Proof.
  intros a sw tr Ha Hh. unfold k_first, add_first. destruct tr as [|[nx| |] r]; try contradiction. cbn [map next_ss rbind].
  change (fst (dom (SubS nx))) with (ss_t0 nx). change (dom (SubS nx)) with (ss_t0 nx, ss_t1 nx).
  rewrite (check_reals dT (ss_t0 nx) (ss_t1 nx) (ss_t0 nx) (ss_pos nx (ss_t0 nx))).
  pose proof (checked_ok (ss_t0 nx) (ss_t1 nx) (ss_t0 nx) (dT / 2) (ss_pos nx (ss_t0 nx)) (ss_vel nx (ss_t0 nx))) as K2.
  destruct (checked (ss_t0 nx) (ss_t1 nx) (ss_t0 nx) (dT / 2) (ss_pos nx (ss_t0 nx))) as [p2| |]; cbn [rbind rmap]; try reflexivity.
  destruct (checked (ss_t0 nx) (ss_t1 nx) (ss_t0 nx) (dT / 2) (ss_vel nx (ss_t0 nx))) as [v2| |]; try contradiction. cbn [rbind].
  unfold k_between. rewrite !pauses_exact. rewrite c0_reals, <- Ha. cbn [a_sub a_add reals]. destruct (ds_pauses Z (ss_t0 nx - d_t a)).
  - rewrite zmp_exact. destruct (zmp_at c sw) as [z| |]; cbn [rbind rmap]; try reflexivity.
    set (m := mid z (ss_zmp nx)). set (ta := d_t a + z_end Z). set (tb := ss_t0 nx - z_nom Z).
    rewrite (mk3_exact tb m vzero (ss_t0 nx) p2 v2). destruct (mk_3 (MkD tb m vzero) (MkD (ss_t0 nx) p2 v2) om) as [x3| |]; cbn [rbind rmap]; try reflexivity.
    rewrite (mk3_exact ta m vzero tb m vzero). destruct (mk_3 (MkD ta m vzero) (MkD tb m vzero) om) as [x2| |]; cbn [rbind rmap]; try reflexivity.
    rewrite (first_exact a ta m vzero). destruct (mk_first c a (MkD ta m vzero)) as [x1| |]; reflexivity.
  - cbn [rbind]. rewrite (first_exact a (ss_t0 nx) p2 v2). destruct (mk_first c a (MkD (ss_t0 nx) p2 v2)) as [x| |]; reflexivity.
Qed.

Variable ord : list step.
Variable shift : list nat.
Lemma at_exact : forall k, k_at reals dT shift k = shift_at dT shift k.
Proof. reflexivity. Qed.
Lemma name_exact : forall k, k_name (map st_name ord) k = rmap st_name (step_at ord k).
Proof. intros k. unfold k_name, step_at. rewrite nth_error_map. destruct (nth_error ord k); reflexivity. Qed.
Lemma loop_exact : forall n pi oi tr, (pi <= n)%nat -> headed tr ->
  k_loop reals om dT (z_pause Z) (z_max Z) (z_nom Z) (z_end Z) (map st_name ord) shift pi oi (map dom tr)
    = rmap (map dom) (build_loop c Z dT ord shift pi oi tr)
  /\ forall tr', build_loop c Z dT ord shift pi oi tr = Ok tr' -> headed tr'.
Proof.
  induction n as [|n IH]; intros pi oi tr Hn Hh.
  { assert (pi = 0%nat) by lia. subst. cbn. split; [reflexivity|]. intros tr' E. injection E as <-. auto. }
  destruct pi as [|[|k]]; try (cbn; split; [reflexivity|]; intros tr' E; injection E as <-; auto).
  cbn [k_loop build_loop]. rewrite !at_exact.
  destruct (shift_at dT shift (S (S k))) as [t1| |]; cbn [rbind rmap]; try (split; [reflexivity|discriminate]).
  rewrite at_exact. destruct (shift_at dT shift (S k)) as [t0| |]; cbn [rbind rmap]; try (split; [reflexivity|discriminate]).
  assert (Hx : exists nx r, tr = SubS nx :: r) by (destruct tr as [|[nx| |] r]; try contradiction; eauto).
  destruct Hx as (nx & r & ->). cbn [map next_ss rbind]. rewrite name_exact.
  destruct (step_at ord oi) as [s| |]; cbn [rbind rmap]; try (split; [reflexivity|discriminate]).
  rewrite zmp_exact. destruct (zmp_at c s) as [z| |]; cbn [rbind rmap]; try (split; [reflexivity|discriminate]).
  destruct (sub_size oi 1) as [oi'| |]; cbn [rbind rmap]; try (split; [reflexivity|discriminate]).
  set (b := MkD ((ss_t0 nx + t1) * dc_alpha c) (ss_pos nx ((ss_t0 nx + t1) * dc_alpha c)) vzero).
  destruct (new_exact t0 t1 z b (SubS nx :: r) Hh) as (E1 & E2). cbn [map] in E1. rewrite E1.
  destruct (add_new c Z dT t0 t1 z b (SubS nx :: r)) as [tr'| |]; cbn [rbind rmap]; try (split; [reflexivity|discriminate]).
  apply IH; [lia|]. apply E2. auto.
Qed.
Lemma build_exact : forall lph p0 v0,
  k_build reals om (dc_still c) dT (z_pause Z) (z_max Z) (z_nom Z) (z_end Z) (map st_name ord) shift lph
  = rmap (map dom) (build c Z dT ord shift lph p0 v0).
Proof.
  intros lph p0 v0. unfold k_build, build. rewrite map_length. destruct (Nat.ltb (length ord) 2); [reflexivity|].
  destruct (Nat.ltb 2 (length ord)).
  2:{ rewrite at_exact. destruct (shift_at dT shift 0) as [t0| |]; cbn [rbind rmap]; try reflexivity.
      rewrite name_exact. destruct (step_at ord 0) as [o0| |]; cbn [rbind rmap]; try reflexivity.
      rewrite zmp_exact. destruct (zmp_at c o0) as [z0| |]; cbn [rbind rmap]; try reflexivity.
      rewrite name_exact. destruct (step_at ord 1) as [o1| |]; cbn [rbind rmap]; try reflexivity.
      rewrite zmp_exact. destruct (zmp_at c o1) as [z1| |]; cbn [rbind rmap]; try reflexivity.
      destruct (sub_size (length shift) 1) as [k| |]; cbn [rbind rmap]; try reflexivity. rewrite at_exact.
      destruct (shift_at dT shift k) as [t1| |]; cbn [rbind rmap]; try reflexivity.
      rewrite (mk3_exact t0 p0 v0 t1 (mid z0 z1) vzero). destruct (mk_3 _ _ om); reflexivity. }
  destruct (sub_size (length shift) 1) as [pi| |]; cbn [rbind rmap]; try reflexivity.
  destruct (sub_size (length ord) 1) as [oi| |]; cbn [rbind rmap]; try reflexivity. rewrite at_exact.
  destruct (shift_at dT shift pi) as [t2| |]; cbn [rbind rmap]; try reflexivity.
  destruct (sub_size pi 1) as [pi1| |]; cbn [rbind rmap]; try reflexivity. rewrite at_exact.
  destruct (shift_at dT shift pi1) as [t1| |]; cbn [rbind rmap]; try reflexivity.
  destruct (sub_size pi1 1) as [pi2| |]; cbn [rbind rmap]; try reflexivity. rewrite at_exact.
  destruct (shift_at dT shift pi2) as [t0| |]; cbn [rbind rmap]; try reflexivity.
  destruct (sub_size pi2 1) as [pi3| |]; cbn [rbind rmap]; try reflexivity. rewrite name_exact.
  destruct (step_at ord oi) as [s1| |]; cbn [rbind rmap]; try reflexivity. rewrite zmp_exact.
  destruct (zmp_at c s1) as [z1| |]; cbn [rbind rmap]; try reflexivity.
  destruct (sub_size oi 1) as [oi1| |]; cbn [rbind rmap]; try reflexivity. rewrite name_exact.
  destruct (step_at ord oi1) as [s2| |]; cbn [rbind rmap]; try reflexivity. rewrite zmp_exact.
  destruct (zmp_at c s2) as [z2| |]; cbn [rbind rmap]; try reflexivity.
  destruct (sub_size oi1 1) as [oi2| |]; cbn [rbind rmap]; try reflexivity.
  set (b := MkD t1 _ vzero). destruct (last_exact t0 t1 t2 z2 b (mid z1 z2) eq_refl) as (E1 & E2). rewrite E1.
  destruct (add_last c dT t0 t1 t2 z2 b (mid z1 z2) []) as [tr| |]; cbn [rbind rmap]; try reflexivity.
  destruct (loop_exact pi3 pi3 oi2 tr (le_n _) (E2 _ eq_refl)) as (E3 & E4). rewrite E3.
  destruct (build_loop c Z dT ord shift pi3 oi2 tr) as [tr'| |]; cbn [rbind rmap]; try reflexivity. rewrite name_exact.
  destruct (step_at ord 0) as [o0| |]; cbn [rbind rmap]; try reflexivity. rewrite name_exact.
  destruct (step_at ord 1) as [o1| |]; cbn [rbind rmap]; try reflexivity.
  destruct lph as [|l0 lph]; [reflexivity|]. set (name := match l0 with SwitchIn => "right"%string | _ => "left"%string end).
  rewrite <- (addfirst_exact (MkD 0 p0 v0) (if String.eqb (st_name o0) name then o0 else o1) tr' eq_refl (E4 _ eq_refl)).
  destruct (String.eqb (st_name o0) name); reflexivity.
Qed.
Lemma eval_exact : forall n i tr, rmap (@length _) (k_eval reals dT n i (map dom tr)) = rmap (@length _) (eval_loop dT n i tr)
  /\ forall us ys, k_eval reals dT n i (map dom tr) = Ok us -> eval_loop dT n i tr = Ok ys ->
     forall k y, nth_error ys k = Some y -> exists x t, In x tr /\ nth_error us k = Some (dom x) /\ t = INR (i + k) * dT
       /\ y = MkDS (sub_pos x t) (sub_vel x t) (sub_zmp x t).
Proof.
  induction n as [|n IH]; intros i tr.
  { split; [reflexivity|]. intros us ys E1 E2 k y Hk. injection E2 as <-. destruct k; discriminate. }
  cbn [k_eval eval_loop a_lt a_mul a_size reals]. destruct tr as [|s r]; cbn [map]; [split; [reflexivity|discriminate]|].
  change (snd (dom s)) with (sub_t1 s). unfold Rgtb.
  assert (Em : (if Rltb (sub_t1 s) (INR i * dT) then map dom r else dom s :: map dom r) = map dom (if Rltb (sub_t1 s) (INR i * dT) then r else s :: r)) by (destruct (Rltb _ _); reflexivity).
  rewrite Em. set (tr' := if Rltb (sub_t1 s) (INR i * dT) then r else s :: r).
  assert (Sub : forall x, In x tr' -> In x (s :: r)) by (intros x; subst tr'; destruct (Rltb _ _); cbn; auto).
  clearbody tr'. clear Em. destruct tr' as [|x q] eqn:Et; cbn [map]; [split; [reflexivity|discriminate]|].
  set (y := MkDS _ _ _). change (dom x) with (sub_t0 x, sub_t1 x) at 1 4. rewrite (check_reals dT (sub_t0 x) (sub_t1 x) (INR i * dT) y).
  unfold checked. destruct (in_domain _ _ _ _); cbn [rbind rmap]; [|split; [reflexivity|discriminate]].
  destruct (IH (S i) (x :: q)) as (H1 & H2). cbn [map] in H1, H2. split.
  - destruct (k_eval reals dT n (S i) (dom x :: map dom q)) as [u| |]; destruct (eval_loop dT n (S i) (x :: q)) as [w| |]; cbn [rbind rmap] in *; try discriminate; auto.
    injection H1 as H1. cbn [length]. rewrite H1. reflexivity.
  - intros us ys E1 E2 k z Hk.
    destruct (k_eval reals dT n (S i) (dom x :: map dom q)) as [u| |]; cbn [rbind] in E1; try discriminate. destruct (eval_loop dT n (S i) (x :: q)) as [w| |]; cbn [rbind] in E2; try discriminate.
    injection E1 as <-. injection E2 as <-. destruct k; cbn [nth_error] in Hk |- *.
    + injection Hk as <-. exists x, (INR i * dT). replace (i + 0)%nat with i by lia. split; [apply Sub; left; auto|]. auto.
    + destruct (H2 u w eq_refl eq_refl k z Hk) as (x' & t & X1 & X2 & X3 & X4). exists x', t. split; [apply Sub; auto|]. split; auto. split; auto. rewrite X3. f_equal. f_equal. lia.
Qed.
End Exact.
