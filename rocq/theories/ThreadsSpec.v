(** Vocabulary for the concurrency properties: what it means for threads to be blocked or to race. *)
From Coq Require Import List Bool Arith.
From Verif Require Import Threads.
Import ListNotations.

(** Every call of every thread has returned. *)
Definition all_returned (s : sys) : Prop := List.Forall (fun t => t = []) (todo s).
(** The world as seen by any number of threads making these calls, before they start. *)
Definition begins (progs : list (list api)) (s : sys) : Prop :=
  (forall m, owner s m = None) /\ Forall2 thread_of progs (todo s).
(** A thread waits for a mutex it holds itself. *)
Definition self_blocked (s : sys) : Prop :=
  exists i m t, nth_error (todo s) i = Some (ALock m :: t) /\ owner s m = Some i.
(** A thread is about to release a mutex that is not its own. *)
Definition foreign_unlock (s : sys) : Prop :=
  exists i m t, nth_error (todo s) i = Some (AUnlock m :: t) /\ owner s m <> Some i.

(** Two threads are about to access the same data and at least one of them to write. *)
Definition touches (a : act) (c : cell) : Prop := a = ARd c \/ a = AWr c.
Definition race (s : sys) : Prop :=
  exists i j c a b t u, i <> j /\ nth_error (todo s) i = Some (a :: t) /\ nth_error (todo s) j = Some (b :: u) /\
    touches a c /\ touches b c /\ (a = AWr c \/ b = AWr c).
Definition race_free (progs : list (list api)) : Prop :=
  forall s0 s, begins progs s0 -> reach s0 s -> ~ race s.

(** Methods all of whose accesses to the shared data are protected by the mutex of the object that owns the data. *)
Definition guard_of (c : cell) : mutex :=
  match c with
  | CFeet | CSteps | CTimes | CPause | CMerge | CPlugs | CPhases => MGen
  | CPlan | CSwing | CNav => MPlan
  | CSpline => MSpline | CJerk => MJerk | CZmp => MZmp | CDcm | CDcmInit => MDcm | CCom => MCom
  end.
(** [accesses h b c w hs]: the body, entered with the mutexes [h] held, may access [c] (writing if [w]) with [hs] held. *)
Inductive accesses : list mutex -> list stmt -> cell -> bool -> list mutex -> Prop :=
| acc_rd : forall h c b, accesses h (Rd c :: b) c false h
| acc_wr : forall h c b, accesses h (Wr c :: b) c true h
| acc_in : forall h m b b' c w hs, accesses (m :: h) b c w hs -> accesses h (Hold m b :: b') c w hs
| acc_next : forall h s b c w hs, accesses h b c w hs -> accesses h (s :: b) c w hs.
Definition protected (a : api) : Prop := forall c w hs, accesses [] (body a) c w hs -> In (guard_of c) hs.

(** Two threads' calls are compatible: whenever both may touch the same data and one of them to write it, they share a mutex
    held at both places. *)
Definition compatible (a b : api) : Prop :=
  forall c w1 w2 h1 h2, accesses [] (body a) c w1 h1 -> accesses [] (body b) c w2 h2 -> (w1 = true \/ w2 = true) ->
    exists m, In m h1 /\ In m h2.
