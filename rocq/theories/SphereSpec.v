(** The surface of a sphere, hulls of vertex lists, similarity maps: vocabulary for C44, C45, C76-C79. *)
From Coq Require Import Reals List.
From Verif Require Import Vec3Model GeoTypes GeoSpec AabbSpec LineSpec.
Open Scope R_scope.

Definition on_surface (s : sphere R) (p : pt) : Prop := dist (spos s) p = srad s.
(** Convex sets, and the convex hull of some points: what every convex set containing them contains. *)
Definition convex (A : pt -> Prop) : Prop := forall x y k, A x -> A y -> 0 <= k <= 1 -> A (plus x (scale k (minus y x))).
Definition in_hull (vs : list pt) (p : pt) : Prop := forall A : pt -> Prop, convex A -> (forall v, In v vs -> A v) -> A p.
(** A line that enters the ball by less than 1/200 (its deepest point lies within the ball, and its squared distance from the
    centre is within 1/40000 of the squared radius): the code treats it as touching in one point. *)
Definition grazes (s : sphere R) (p d : pt) : Prop :=
  exists t, dist (spos s) (along p d t) <= srad s /\ srad s * srad s - dist (spos s) (along p d t) * dist (spos s) (along p d t) < 1 / 40000 /\
    forall u, dist (spos s) (along p d t) <= dist (spos s) (along p d u).
(** A matrix that scales every length by k. *)
Definition scales_by (f : pt -> pt) (k : R) : Prop := forall v, norm (f v) = k * norm v.
