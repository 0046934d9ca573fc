(** Convex polyhedra given by vertices and faces: vocabulary for C98-C101, independent of the model. *)
From Coq Require Import Reals ZArith List.
From Verif Require Import Vec3Model GeoTypes GeoSpec MatProofs2 SphereSpec PolyTopoSpec.
Import ListNotations.
Open Scope R_scope.

Definition at_index (vs : list pt) (i : Z) : pt := nth (Z.to_nat i) vs origin.
(** The face [f] seen from the side [n] points to: planar, convex, counterclockwise, its first corner is a proper one, and no vertex
    of the polyhedron lies on that side of it. *)
Record outward (vs : list pt) (f : list Z) (n : pt) : Prop := {
  flat : forall x y, In x f -> In y f -> dot n (minus (at_index vs y) (at_index vs x)) = 0;
  left_of_edges : forall a b x, In (a, b) (directed f) -> In x f -> 0 <= dot n (cross (minus (at_index vs b) (at_index vs a)) (minus (at_index vs x) (at_index vs a)));
  first_corner : 0 < dot n (cross (minus (at_index vs (nth 1 f 0%Z)) (at_index vs (nth 0 f 0%Z))) (minus (at_index vs (nth 2 f 0%Z)) (at_index vs (nth 0 f 0%Z))));
  behind : forall x v, In x f -> In v vs -> dot n (minus v (at_index vs x)) <= 0 }.
(** A closed convex polyhedron with outward faces that encloses some volume: the point [c] is strictly behind every face. *)
Definition convex_solid (vs : list pt) (fs : list (list Z)) : Prop :=
  valid (length vs) fs /\ closed fs /\ fs <> [] /\
  exists c, forall f, In f fs -> exists n, outward vs f n /\ forall x, In x f -> dot n (minus c (at_index vs x)) < 0.
(** Different vertices used by faces are at different places, and two edges that leave a vertex in the same direction are the same edge. *)
Definition tidy (vs : list pt) (fs : list (list Z)) : Prop :=
  (forall a b c d, In (a, b) (all_directed fs) -> In (c, d) (all_directed fs) -> at_index vs a = at_index vs c -> a = c) /\
  (forall a b c t, In (a, b) (all_directed fs) -> In (a, c) (all_directed fs) -> 0 < t ->
     minus (at_index vs c) (at_index vs a) = scale t (minus (at_index vs b) (at_index vs a)) -> b = c).
(** The solid between all faces. *)
Definition behind_all (vs : list pt) (fs : list (list Z)) (q : pt) : Prop :=
  forall f n, In f fs -> outward vs f n -> forall x, In x f -> dot n (minus q (at_index vs x)) <= 0.
