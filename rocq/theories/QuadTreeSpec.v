(** Specification vocabulary for the quadtree: histories of calls, what should be stored after them, and when two rectangles overlap. *)
From Coq Require Import Bool List.
From Verif Require Import Num Vec2Model QuadTreeModel.
Import ListNotations.

(** The calls a client makes. *)
Inductive qop (T : Type) := OpClear (mn mx : v2 T) | OpAdd (o : nat) | OpRemove (o : nat).
Arguments OpClear {T}. Arguments OpAdd {T}. Arguments OpRemove {T}.

(** What a client knows: whether Clear was called, what is stored, and which objects still remember a node of a tree cleared since. *)
Record book := Book { cleared : bool; stored : list nat; stale : list nat }.
Definition forget (o : nat) (l : list nat) : list nat := filter (fun p => negb (Nat.eqb p o)) l.
Definition book_step {T} (b : book) (op : qop T) : book :=
  match op with
  | OpClear _ _ => Book true [] (stored b ++ stale b)
  | OpAdd o => Book (cleared b) (o :: stored b) (forget o (stale b))
  | OpRemove o => Book (cleared b) (forget o (stored b)) (stale b)
  end.
Definition book_run {T} (ops : list (qop T)) : book := fold_left book_step ops (Book false [] []).
(** What the class documentation asks of a client: Clear comes first, an object is stored at most once (QuadTree.h:85), and
    an object that was in the tree when it was cleared is not removed afterwards (it still points to its old node). *)
Definition legal {T} (b : book) (op : qop T) : Prop :=
  match op with
  | OpClear _ _ => True
  | OpAdd o => cleared b = true /\ ~ In o (stored b)
  | OpRemove o => ~ In o (stale b)
  end.
Fixpoint legal_from {T} (b : book) (ops : list (qop T)) : Prop :=
  match ops with [] => True | op :: r => legal b op /\ legal_from (book_step b op) r end.
Definition legal_history {T} (ops : list (qop T)) : Prop := legal_from (Book false [] []) ops.

Section Run.
  Context {T : Type} `{NT : Num T}.
  Variable rect : nat -> aabb2 T.
  Definition qstep (fuel : nat) (s : qt * assocs) (op : qop T) : outcome (qt * assocs) :=
    match op with
    | OpClear mn mx => QDone (QuadTree_Clear mn mx, snd s)
    | OpAdd o => QuadTree_Add rect fuel (fst s) (snd s) o
    | OpRemove o => QuadTree_Remove (fst s) (snd s) o
    end.
  Fixpoint qrun (fuel : nat) (s : qt * assocs) (ops : list (qop T)) : outcome (qt * assocs) :=
    match ops with [] => QDone s | op :: r => qbind (qstep fuel s op) (fun s' => qrun fuel s' r) end.
  Definition qstart : qt * assocs := (QuadTree_new, fun _ => None).

  (** Node j is below node i. *)
  Inductive qreach (ns : list (qnode T)) : nat -> nat -> Prop :=
  | qreach_here i : qreach ns i i
  | qreach_child i nd c k j : nth_error ns i = Some nd -> qchild nd = Some c -> (k < 4)%nat -> qreach ns (c + k) j -> qreach ns i j.
End Run.
