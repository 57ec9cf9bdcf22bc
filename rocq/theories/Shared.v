(** Foot print objects that hold their list of steps through a shared pointer: model of
    src/FootPrint.cpp with the pointer member of include/FootPrint.h:25, of the constructor that takes
    a list (src/FootPrint.cpp:17-21) and of the compiler generated copies and moves of the class (it
    declares none, include/FootPrint.h:24-70).  FootPrint.v models one object that owns its list. *)
From Coq Require Import String.
From Coq Require Import Reals List Bool.
From Verif Require Import Prelude FootPrint.
Import ListNotations.
Open Scope R_scope.

(** Returned value of the operations of FootPrint.v ([true] for void methods). *)
Definition fp_call (fp : footprint) (o : fpop) : footprint * bool :=
  match o with
  | OpAdd p a t => fp_addStep p a t fp
  | OpDropPast => fp_dropPast fp
  | OpKeep t => fp_keepPresent t fp
  | OpClear => (fp_clear fp, true)
  | OpClearLast => (fp_clearLast fp, true)
  | OpSetName n => (fp_setName n fp, true)
  end.

(** An object: m_steps ([None] = null) and m_footName. *)
Record obj : Type := MkObj { o_ptr : option nat; o_name : string }.

(** All lists that exist and all foot print objects, in order of creation.  Objects are not destroyed
    in the model: a destroyed object is one that is not used any more. *)
Record world : Type := MkW { w_cells : list (list step); w_objs : list obj }.
Definition w_new : world := MkW [] [].

(** What the library leaves open: the order of steps with equal times after std::sort (src/FootPrint.cpp:20)
    and the name of an object whose content was moved away. *)
Record left_open : Type := MkOpen { e_sort : list step -> list step; e_moved : string }.

(** Replace the [n]-th entry. *)
Fixpoint upd {A : Type} (n : nat) (x : A) (l : list A) : list A :=
  match l, n with
  | [], _ => []
  | _ :: r, O => x :: r
  | a :: r, S m => a :: upd m x r
  end.

(** What a program can do.  [WAlloc l]: make_shared of a list by the user; [WUser p l]: the user
    writes the list through their own pointer; [WWrap p]: FootPrint(steps) with a pointer of the user,
    [None] = null; [WFrom l]: FootPrint(steps) with a list nobody else holds; [WSet o l]: writing
    through getSteps (src/FootPrint.cpp:113-116). *)
Inductive wop : Type :=
| WNew
| WAlloc (l : list step)
| WUser (p : nat) (l : list step)
| WWrap (p : option nat)
| WFrom (l : list step)
| WCopy (o : nat)
| WMove (o : nat)
| WAssign (dst src : nat)
| WDo (o : nat) (f : fpop)
| WSet (o : nat) (l : list step).

(** A method called on an object whose pointer is null: lines 25-28 and 54-55 test it, lines 66, 96
    and 102-103 through numberOfSteps; lines 75 and 91 dereference it. *)
Definition null_call (n : string) (f : fpop) : res (string * bool) :=
  match f with
  | OpAdd _ _ _ => Ok (n, false)
  | OpDropPast => Ok (n, false)
  | OpKeep _ => UB
  | OpClear => UB
  | OpClearLast => Ok (n, true)
  | OpSetName m => Ok (m, true)
  end.

(** One operation: new world and returned value.  [Fail]: the program names an object or a list that
    does not exist, which no C++ program can do. *)
Definition w_step (e : left_open) (w : world) (op : wop) : res (world * bool) :=
  let cells := w_cells w in
  let objs := w_objs w in
  match op with
  | WNew => Ok (MkW (cells ++ [[]]) (objs ++ [MkObj (Some (List.length cells)) "footprint"]), true)
  | WAlloc l => Ok (MkW (cells ++ [l]) objs, true)
  | WUser p l =>
      match nth_error cells p with
      | None => Fail
      | Some _ => Ok (MkW (upd p l cells) objs, true)
      end
  | WWrap None => UB
  | WWrap (Some p) =>
      match nth_error cells p with
      | None => Fail
      | Some l => Ok (MkW (upd p (e_sort e l) cells) (objs ++ [MkObj (Some p) "footprint"]), true)
      end
  | WFrom l =>
      Ok (MkW (cells ++ [e_sort e l]) (objs ++ [MkObj (Some (List.length cells)) "footprint"]), true)
  | WCopy o =>
      match nth_error objs o with
      | None => Fail
      | Some b => Ok (MkW cells (objs ++ [b]), true)
      end
  | WMove o =>
      match nth_error objs o with
      | None => Fail
      | Some b => Ok (MkW cells (upd o (MkObj None (e_moved e)) objs ++ [b]), true)
      end
  | WAssign d s =>
      match nth_error objs d, nth_error objs s with
      | Some _, Some b => Ok (MkW cells (upd d b objs), true)
      | _, _ => Fail
      end
  | WDo o f =>
      match nth_error objs o with
      | None => Fail
      | Some b =>
          match o_ptr b with
          | None => do r <- null_call (o_name b) f; Ok (MkW cells (upd o (MkObj None (fst r)) objs), snd r)
          | Some p =>
              match nth_error cells p with
              | None => Fail
              | Some l =>
                  let '(fp, v) := fp_call (MkFP l (o_name b)) f in
                  Ok (MkW (upd p (fp_steps fp) cells) (upd o (MkObj (Some p) (fp_name fp)) objs), v)
              end
          end
      end
  | WSet o l =>
      match nth_error objs o with
      | None => Fail
      | Some b =>
          match o_ptr b with
          | None => UB
          | Some p => match nth_error cells p with
                      | None => Fail
                      | Some _ => Ok (MkW (upd p l cells) objs, true)
                      end
          end
      end
  end.

(** A program and the values it saw. *)
Fixpoint w_run (e : left_open) (w : world) (ops : list wop) : res (world * list bool) :=
  match ops with
  | [] => Ok (w, [])
  | op :: rest =>
      do r <- w_step e w op;
      do q <- w_run e (fst r) rest;
      Ok (fst q, snd r :: snd q)
  end.

(** getSteps (src/FootPrint.cpp:108-116) and getFootName (123-126) of an object. *)
Definition w_steps (w : world) (o : nat) : option (list step) :=
  match nth_error (w_objs w) o with
  | None => None
  | Some b => match o_ptr b with None => None | Some p => nth_error (w_cells w) p end
  end.
Definition w_name (w : world) (o : nat) : option string := option_map o_name (nth_error (w_objs w) o).
