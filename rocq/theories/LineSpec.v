(** Point sets of lines and rays, nearest points and nearest pairs. *)
From Coq Require Import Reals.
From Verif Require Import Vec3Model GeoTypes GeoSpec AabbSpec.
Open Scope R_scope.

Definition on_line (l : line R) (p : pt) : Prop := exists t, p = along (lpos l) (ldir l) t.
Definition on_ray (r : ray R) (p : pt) : Prop := exists t, 0 <= t /\ p = along (rpos r) (rdir r) t.
(** [a] is a point of A nearest to p; (a, b) is a nearest pair of points of A and B. *)
Definition nearest (A : pt -> Prop) (p a : pt) : Prop := A a /\ forall a', A a' -> dist a p <= dist a' p.
Definition nearest_pair (A B : pt -> Prop) (a b : pt) : Prop :=
  A a /\ B b /\ forall a' b', A a' -> B b' -> dist a b <= dist a' b'.
(** The distance between two sets is attained. *)
Definition distance_is (A B : pt -> Prop) (x : R) : Prop :=
  (exists a b, A a /\ B b /\ dist a b = x) /\ forall a b, A a -> B b -> x <= dist a b.
Definition proper_seg (s : segment R) : Prop := seg_a s <> seg_b s.
