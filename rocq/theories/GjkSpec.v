(** Specification for the GJK test: bodies, their difference, and what a support function is. *)
From Coq Require Import Reals List.
From Verif Require Import Vec3Model GeoTypes GeoSpec SphereSpec GjkModel.
Open Scope R_scope.

(** All differences of a point of one body and a point of the other: it has the origin exactly if the bodies meet. *)
Definition difference (A B : pt -> Prop) (x : pt) : Prop := exists a b, A a /\ B b /\ x = minus a b.
Definition meet (A B : pt -> Prop) : Prop := exists p, A p /\ B p.
Definition within_reach (A B : pt -> Prop) (r : R) : Prop := exists a b, A a /\ B b /\ dist a b <= r.
(** The shape supports the body: any point is in it, and so is the extreme point in every direction (other than the null vector), whose projection is the greatest. *)
Definition supports (h : shape R) (A : pt -> Prop) : Prop :=
  A (anyPoint h) /\ convex A /\ (forall d, snd (extremePoint h d) = dot d (fst (extremePoint h d))) /\
  forall d, d <> origin -> A (fst (extremePoint h d)) /\ forall p, A p -> dot d p <= snd (extremePoint h d).
