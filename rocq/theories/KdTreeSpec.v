(** Vocabulary for the kd-tree properties C53-C56: paths in the node array.  Uses only the data members. *)
From Coq Require Import List.
From Verif Require Import Num Vec3Model GeoTypes KdTreeModel.
Import ListNotations.

(** Invocations of a callback on the elements of a list in order, until it asks to stop (last invocation first). *)
Fixpoint until {A} (stop : list A -> bool) (todo done : list A) : list A :=
  match todo with
  | [] => done
  | x :: r => if stop (x :: done) then x :: done else until stop r (x :: done)
  end.

Section Paths.
  Context {T : Type} `{NT : Num T}.
  (** Node j is i or a descendant of i. *)
  Inductive reach (ns : list (node T)) : nat -> nat -> Prop :=
  | reach_here i : reach ns i i
  | reach_left i ax p c j : nth_error ns i = Some (NInner ax p c) -> reach ns c j -> reach ns i j
  | reach_right i ax p c j : nth_error ns i = Some (NInner ax p c) -> reach ns (S c) j -> reach ns i j.
  (** ... by a path along which the box q is nowhere entirely on the other side of a split. *)
  Inductive overlaps (ns : list (node T)) (q : aabb T) : nat -> nat -> Prop :=
  | ov_here i : overlaps ns q i i
  | ov_left i ax p c j : nth_error ns i = Some (NInner ax p c) -> nleb (at3 (minPoint q) ax) p = true ->
      overlaps ns q c j -> overlaps ns q i j
  | ov_right i ax p c j : nth_error ns i = Some (NInner ax p c) -> nleb p (at3 (maxPoint q) ax) = true ->
      overlaps ns q (S c) j -> overlaps ns q i j.
  (** Node j is a leaf whose bucket is the given list of objects. *)
  Definition leaf_objects (t : kd T) (j : nat) (os : list nat) : Prop :=
    exists b, nth_error (nodes t) j = Some (NLeaf b) /\ nth_error (buckets t) b = Some (Some os).
  Definition is_leaf (t : kd T) (j : nat) : Prop := exists b, nth_error (nodes t) j = Some (NLeaf b).
  Definition is_inner (t : kd T) (j : nat) : Prop := exists ax p c, nth_error (nodes t) j = Some (NInner ax p c).
  (** Depth of a node counted in nodes on the path from the root. *)
  Inductive depth (ns : list (node T)) : nat -> nat -> Prop :=
  | depth_root : depth ns 1 1
  | depth_left i ax p c n : depth ns i n -> nth_error ns i = Some (NInner ax p c) -> depth ns c (S n)
  | depth_right i ax p c n : depth ns i n -> nth_error ns i = Some (NInner ax p c) -> depth ns (S c) (S n).
End Paths.
