(** Rectangles in the plane, independent of the model. *)
From Coq Require Import Reals List.
From Verif Require Import Vec2Model Vec2Spec.
Import ListNotations.
Open Scope R_scope.
(** The quarter turn to the left. *)
Definition left90 (w : p2) : p2 := V2 (- y2 w) (x2 w).
(** The rectangle with the side direction w (and left90 w), bounds v0..v1 along w and u0..u1 along left90 w, contains the points. *)
Definition boxes (w : p2) (u0 u1 v0 v1 : R) (pts : list p2) : Prop := forall p, In p pts -> u0 <= dt (left90 w) p <= u1 /\ v0 <= dt w p <= v1.
(** No rectangle with the unit side direction w around the points has an area below m. *)
Definition least_at (m : R) (w : p2) (pts : list p2) : Prop := forall u0 u1 v0 v1, boxes w u0 u1 v0 v1 pts -> m <= (u1 - u0) * (v1 - v0).
(** Every side of the rectangle touches a point. *)
Definition touches (w : p2) (u0 u1 v0 v1 : R) (pts : list p2) : Prop :=
  (exists p, In p pts /\ dt (left90 w) p = u0) /\ (exists p, In p pts /\ dt (left90 w) p = u1) /\ (exists p, In p pts /\ dt w p = v0) /\ exists p, In p pts /\ dt w p = v1.
