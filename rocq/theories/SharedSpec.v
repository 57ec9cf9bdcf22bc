(** Foot prints as values: every object owns its list, a copy is a new list. *)
From Coq Require Import String.
From Coq Require Import Reals List Bool Sorting.Sorted Sorting.Permutation.
From Verif Require Import Prelude FootPrint FootPrintSpec Shared.
Import ListNotations.
Open Scope R_scope.

(** Contract of std::sort with the comparison of src/FootPrint.cpp:20. *)
Definition sorts (e : left_open) : Prop := forall l, Permutation (e_sort e l) l /\ time_sorted (e_sort e l).

(** A value: the steps, if they were not moved away, and the name. *)
Definition value : Type := (option (list step) * string)%type.

(** The value [o] replaced. *)
Definition put (o : nat) (x : value) (l : list value) : list value := firstn o l ++ x :: skipn (S o) l.

(** Programs without a pointer of the user. *)
Definition v_step (e : left_open) (vs : list value) (op : wop) : res (list value * bool) :=
  match op with
  | WNew => Ok (vs ++ [(Some [], "footprint"%string)], true)
  | WFrom l => Ok (vs ++ [(Some (e_sort e l), "footprint"%string)], true)
  | WCopy o => match nth_error vs o with None => Fail | Some x => Ok (vs ++ [x], true) end
  | WMove o => match nth_error vs o with
               | None => Fail
               | Some x => Ok (put o (None, e_moved e) vs ++ [x], true)
               end
  | WAssign d s => match nth_error vs d, nth_error vs s with
                   | Some _, Some x => Ok (put d x vs, true)
                   | _, _ => Fail
                   end
  | WDo o f =>
      match nth_error vs o with
      | None => Fail
      | Some (Some l, n) =>
          Ok (put o (Some (fp_steps (fst (fp_call (MkFP l n) f))), fp_name (fst (fp_call (MkFP l n) f))) vs,
              snd (fp_call (MkFP l n) f))
      | Some (None, n) => do r <- null_call n f; Ok (put o (None, fst r) vs, snd r)
      end
  | WSet o l =>
      match nth_error vs o with
      | None => Fail
      | Some (None, _) => UB
      | Some (Some _, n) => Ok (put o (Some l, n) vs, true)
      end
  | WAlloc _ | WUser _ _ | WWrap _ => Fail
  end.
Fixpoint v_run (e : left_open) (vs : list value) (ops : list wop) : res (list value * list bool) :=
  match ops with
  | [] => Ok (vs, [])
  | op :: rest =>
      do r <- v_step e vs op;
      do q <- v_run e (fst r) rest;
      Ok (fst q, snd r :: snd q)
  end.

(** Operations that do not give a second holder to a list. *)
Definition unshared (op : wop) : Prop :=
  match op with WCopy _ | WAssign _ _ | WAlloc _ | WUser _ _ | WWrap _ => False | _ => True end.

(** What can be seen of a world. *)
Definition seen (w : world) : list value :=
  map (fun b => (match o_ptr b with None => None | Some p => nth_error (w_cells w) p end, o_name b)) (w_objs w).

(** Same outcome. *)
Definition same_run (a : res (world * list bool)) (b : res (list value * list bool)) : Prop :=
  match a, b with
  | Ok (w, v), Ok (vs, v') => seen w = vs /\ v = v'
  | Fail, Fail => True
  | UB, UB => True
  | _, _ => False
  end.

(** Operations that give object [o] another list. *)
Definition redirects (o : nat) (op : wop) : Prop :=
  match op with WMove x => x = o | WAssign d _ => d = o | _ => False end.

(** Operations after which no object holds a null pointer. *)
Definition no_null (op : wop) : Prop := match op with WMove _ | WWrap None => False | _ => True end.
