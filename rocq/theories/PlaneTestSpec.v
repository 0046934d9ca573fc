(** Specification for the plane intersection tests. *)
From Coq Require Import Reals List.
From Verif Require Import Vec2Model Vec2Spec HullSpec PlaneTestModel.
Import ListNotations.
Open Scope R_scope.

Definition meet2 (A B : p2 -> Prop) : Prop := exists p, A p /\ B p.
Definition reach2 (A B : p2 -> Prop) (r : R) : Prop := exists a b, A a /\ B b /\ dst a b <= r.
Definition difference2 (A B : p2 -> Prop) (x : p2) : Prop := exists a b, A a /\ B b /\ x = mi a b.
(** The shape supports the body: any point is in it, and so is the extreme point in every direction, whose projection is the greatest. *)
Definition supports2 (h : shape2 R) (A : p2 -> Prop) : Prop :=
  A (anyPoint2 h) /\ convex2 A /\ forall d, A (fst (extremePoint2 h d)) /\ snd (extremePoint2 h d) = dt d (fst (extremePoint2 h d)) /\ forall p, A p -> dt d p <= snd (extremePoint2 h d).
(** The parallelogram of a centre and two half axes. *)
Definition in_obb2 (c a0 a1 : p2) (p : p2) : Prop := exists u v, -1 <= u <= 1 /\ -1 <= v <= 1 /\ p = pl c (pl (sc u a0) (sc v a1)).
(** The body moved by a vector. *)
Definition shifted (v : p2) (A : p2 -> Prop) (p : p2) : Prop := A (mi p v).
(** Every edge is longer than the given length. *)
Definition edges_longer (r : R) (vs : list p2) : Prop := forall a b, In (a, b) (polygon_edges vs) -> r < dst b a.
