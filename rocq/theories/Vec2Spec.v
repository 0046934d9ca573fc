(** Plane geometry over R: the vocabulary of the float2 and AABB2D specifications. *)
From Coq Require Import Reals.
From Verif Require Import Vec2Model.
Open Scope R_scope.

Definition p2 := v2 R.
Definition dt (a b : p2) : R := x2 a * x2 b + y2 a * y2 b.
Definition pl (a b : p2) : p2 := V2 (x2 a + x2 b) (y2 a + y2 b).
Definition mi (a b : p2) : p2 := V2 (x2 a - x2 b) (y2 a - y2 b).
Definition sc (k : R) (a : p2) : p2 := V2 (k * x2 a) (k * y2 a).
Definition nrm (a : p2) : R := sqrt (dt a a).
Definition dst (a b : p2) : R := nrm (mi a b).
Definition o2 : p2 := V2 0 0.
(** Signed area of the parallelogram spanned by a and b: positive when b lies counter-clockwise of a. *)
Definition area2 (a b : p2) : R := x2 a * y2 b - y2 a * x2 b.
(** The points of a box. *)
Definition in_box2 (b : aabb2 R) (q : p2) : Prop := x2 (min2 b) <= x2 q <= x2 (max2 b) /\ y2 (min2 b) <= y2 q <= y2 (max2 b).
