(** Specification vocabulary for planning: lists of added steps, placements, landing costs. *)
From Coq Require Import Reals List Bool.
From Verif Require Import Prelude FootPrint UnicycleFoot Ellipse Optimization FootSpec.
Import ListNotations.
Open Scope R_scope.

(** The foot that moves at the n-th added step when the first one moves foot [sw] ([true] = left). *)
Fixpoint turn (sw : bool) (n : nat) : bool :=
  match n with O => sw | S k => negb (turn sw k) end.

(** Deal steps to the feet, alternately, the first one to foot [sw]: (left, right). *)
Fixpoint deal (sw : bool) (adds : list step) : list step * list step :=
  match adds with
  | [] => ([], [])
  | x :: r => let '(a, b) := deal (negb sw) r in if sw then (x :: a, b) else (a, x :: b)
  end.

(** [P sw prev x] holds of each step [x] with the foot that moves and the step before it. *)
Fixpoint chain (P : bool -> step -> step -> Prop) (sw : bool) (prev : step) (adds : list step) : Prop :=
  match adds with
  | [] => True
  | x :: r => P sw prev x /\ chain P (negb sw) x r
  end.

Definition later (sw : bool) (a b : step) : Prop := st_time a < st_time b.

(** Geometry of the two feet: offsets in the unicycle frame and yaw offsets. *)
Record geom : Type := MkGeom { off : bool -> vec2; yaw : bool -> R }.

(** Step [s] is the pose of foot [b] when the unicycle is at [u]. *)
Definition stands_at (g : geom) (b : bool) (u : ustate) (s : step) : Prop :=
  st_pos s = V2 (vx (u_pos u) + cos (u_angle u) * vx (off g b) - sin (u_angle u) * vy (off g b))
                (vy (u_pos u) + sin (u_angle u) * vx (off g b) + cos (u_angle u) * vy (off g b))
  /\ st_angle s = u_angle u + yaw g b.

(** Both steps belong to one unicycle pose. *)
Definition parallel_to (g : geom) (b : bool) (s : step) (b' : bool) (s' : step) : Prop :=
  exists u, stands_at g b u s /\ stands_at g b' u s'.

(** Step [x] of foot [sw] is on the unicycle pose [u] and respects the limits of [p] with respect to
    [prev], the last step of the other foot. *)
Definition admissible_at (p : problem) (g : geom) (u : ustate) (sw : bool) (prev x : step) : Prop :=
  stands_at g sw u x
  /\ admissible p sw prev (st_pos x) (u_angle u) (st_angle prev - yaw g (negb sw) - u_angle u).

(** A step placed by the search between [init] and [tend]: on the sampled trajectory [sol] and
    admissible, or parallel to the stance foot; in both cases late enough. *)
Definition search_placement (p : problem) (g : geom) (sol : R -> ustate) (init tend minT : R)
  (sw : bool) (prev x : step) : Prop :=
  (admissible_at p g (sol (st_time x)) sw prev x \/ parallel_to g (negb sw) prev sw x)
  /\ st_time prev < st_time x /\ minT <= st_time x - st_time prev
  /\ init < st_time x /\ st_time x <= tend.

(** The steps after the end of the search: none; one parallel to the stance foot; or two on the final
    pose, the first of which is admissible. *)
Inductive terminal_placement (p : problem) (g : geom) (ufin : ustate) (sw : bool) (prev : step)
  : list step -> Prop :=
| TpNone : terminal_placement p g ufin sw prev []
| TpParallel : forall x, parallel_to g (negb sw) prev sw x ->
    terminal_placement p g ufin sw prev [x]
| TpFinal : forall x y, admissible_at p g ufin sw prev x -> stands_at g (negb sw) ufin y ->
    terminal_placement p g ufin sw prev [x; y].

(** Last element with default. *)
Definition last_step (adds : list step) (d : step) : step := List.last adds d.

(** [s] is close to the pose of foot [b] at [u]: closer than [len], heading closer than [ang]. *)
Definition near_stance (g : geom) (b : bool) (u : ustate) (len ang : R) (s : step) : Prop :=
  exists ideal, stands_at g b u ideal
    /\ dist2d (st_pos ideal) (st_pos s) < len
    /\ Rabs (st_angle s - st_angle ideal) < ang.

(** Cost of landing after [dt] with the feet at [p] and [q]: fast and short steps are cheap. *)
Definition landing_cost (pr : problem) (dt : R) (p q : vec2) : R :=
  p_timeW pr / (dt * dt) + p_posW pr * ((vx p - vx q) ^ 2 + (vy p - vy q) ^ 2).

(** Feet parallel up to a step that would be too small to be worth taking; [a], [b]: last steps of the
    left and right foot. *)
Definition feet_parallel (g : geom) (minLen minAng : R) (a b : step) : Prop :=
  parallel_to g true a false b
  \/ exists u, (stands_at g true u a /\ near_stance g false u minLen minAng b)
            \/ (stands_at g false u b /\ near_stance g true u minLen minAng a).

(** Position and angle of a step. *)
Definition placed (s : step) : vec2 * R := (st_pos s, st_angle s).

(** The lists of steps a planning call starts from: the stored steps, or, when there are none, one
    step of each foot at the initial time on a common pose. *)
Definition starts_from (g : geom) (init : R) (ls rs ls0 rs0 : list step) : Prop :=
  ((ls <> [] \/ rs <> []) /\ ls0 = ls /\ rs0 = rs)
  \/ (ls = [] /\ rs = [] /\ exists a b, ls0 = [a] /\ rs0 = [b] /\ st_time a = init /\ st_time b = init
        /\ parallel_to g true a false b).

(** Timing of the terminal steps. *)
Definition nominal_after (init nomT : R) (sw : bool) (a b : step) : Prop :=
  st_time b = Rmax init (st_time a) + nomT.

(** Every stored step with an impact time at most [t] - for the last one only, as the others are
    not read. *)
Definition last_before (t : R) (l : list step) : Prop :=
  forall s, last_opt l = Some s -> st_time s <= t.

(** What the final synchronisation does. *)
Definition synchronised (ls rs ls' rs' : list step) (resetStart startLeft startLeft' : bool) : Prop :=
  exists a b a' b', last_opt ls = Some a /\ last_opt rs = Some b
    /\ last_opt ls' = Some a' /\ last_opt rs' = Some b'
    /\ st_time a' = Rmax (st_time a) (st_time b) /\ st_time b' = Rmax (st_time a) (st_time b)
    /\ removelast ls' = removelast ls /\ removelast rs' = removelast rs
    /\ placed a' = placed a /\ placed b' = placed b
    /\ (resetStart = true -> startLeft' = startLeft)
    /\ (resetStart = false -> st_time b < st_time a -> startLeft' = false)
    /\ (resetStart = false -> st_time a < st_time b -> startLeft' = true)
    /\ (st_time a = st_time b -> startLeft' = startLeft /\ ls' = ls /\ rs' = rs).
