(** Specification of polygons in space, independent of the model: the image of a plane vertex list under an isometric embedding. *)
From Coq Require Import Reals List Bool.
From Verif Require Import Num NumR Vec3Model Vec2Model GeoSpec Vec2Spec HullSpec MatProofs2.
Import ListNotations.
Open Scope R_scope.

(** A plane in space: an origin and two orthonormal axes; [cross U V] is the side from which counter-clockwise is counter-clockwise. *)
Definition frame (U V : pt) : Prop := dot U U = 1 /\ dot V V = 1 /\ dot U V = 0.
Definition embed (o U V : pt) (q : p2) : pt := plus o (plus (scale (x2 q) U) (scale (y2 q) V)).
(** Some three vertices, in the order of the list, span a triangle of twice the area above 1e-4. *)
Definition triple (qs : list p2) (a b c : p2) : Prop := exists l1 l2 l3 l4, qs = l1 ++ a :: l2 ++ b :: l3 ++ c :: l4.
Definition spans (qs : list p2) : Prop := exists a b c, triple qs a b c /\ 1 / 10000 < Rabs (turn a b c).
(** A point strictly to the left of every edge, and one at least r inside every edge line. *)
Definition strictly_inside (vs : list p2) (q : p2) : Prop := forall a b, In (a, b) (polygon_edges vs) -> 0 < turn a b q.
Definition deep_inside (vs : list p2) (q : p2) (r : R) : Prop := forall a b, In (a, b) (polygon_edges vs) -> r * dst a b < turn a b q.
(** The interior of a triangle in either orientation, and the even-odd rule over the fan of triangles from the first vertex. *)
Definition inside_tri (a b c q : p2) : Prop := (0 < turn a b q /\ 0 < turn b c q /\ 0 < turn c a q) \/ (turn a b q < 0 /\ turn b c q < 0 /\ turn c a q < 0).
Fixpoint odd_fan (v0 v : p2) (rest : list p2) (q : p2) : Prop :=
  match rest with
  | [] => False
  | w :: r => (inside_tri v0 v w q /\ ~ odd_fan v0 w r q) \/ (~ inside_tri v0 v w q /\ odd_fan v0 w r q)
  end.
(** The signed area by the shoelace formula, and the length of the boundary. *)
Fixpoint sum_edges (f : p2 -> p2 -> R) (es : list (p2 * p2)) : R := match es with [] => 0 | (a, b) :: r => f a b + sum_edges f r end.
Definition signed_area (vs : list p2) : R := sum_edges area2 (polygon_edges vs) / 2.
Definition boundary_length (vs : list p2) : R := sum_edges dst (polygon_edges vs).
