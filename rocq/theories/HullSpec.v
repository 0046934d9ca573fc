(** Specification of convex hulls in the plane, independent of the model. *)
From Coq Require Import Reals List Bool.
From Verif Require Import Num NumR Vec2Model Vec2Spec.
Import ListNotations.
Open Scope R_scope.

(** Twice the signed area of the triangle o, a, b: positive when b is to the left of the directed line from o to a. *)
Definition turn (o a b : p2) : R := area2 (mi a o) (mi b o).
(** Convex sets and hulls. *)
Definition convex2 (A : p2 -> Prop) : Prop := forall a b t, 0 <= t <= 1 -> A a -> A b -> A (pl a (sc t (mi b a))).
Definition in_hull2 (vs : list p2) (p : p2) : Prop := forall A : p2 -> Prop, convex2 A -> (forall v, In v vs -> A v) -> A p.
(** The directed edges of the closed polygon with the given vertices, first the one from the last vertex to the first. *)
Fixpoint path (a : p2) (vs : list p2) : list (p2 * p2) := match vs with [] => [] | v :: rest => (a, v) :: path v rest end.
Definition polygon_edges (vs : list p2) : list (p2 * p2) := match vs with [] => [] | v :: _ => path (last vs v) vs end.
(** A strictly convex polygon listed counter-clockwise: no repeated vertices, a left turn at every corner, no vertex to the right of an edge. *)
Definition ccw_polygon (vs : list p2) : Prop :=
  NoDup vs /\ (forall a b c, In (a, b) (polygon_edges vs) -> In (b, c) (polygon_edges vs) -> 0 < turn a b c) /\
  forall a b v, In (a, b) (polygon_edges vs) -> In v vs -> 0 <= turn a b v.
(** All points on one line. *)
Definition collinear (vs : list p2) : Prop := forall a b c, In a vs -> In b vs -> In c vs -> turn a b c = 0.
