(** What the float4 functions are documented to compute, over the reals. *)
From Coq Require Import Reals.
From Verif Require Import Vec3Model GeoTypes GeoSpec MatModel MatSpec.
Open Scope R_scope.
Notation q4 := (v4 R) (only parsing).
(** Linear combinations, the Euclidean norm of the four components, and the direction part (x,y,z). *)
Definition lin4 (s : R) (a : q4) (t : R) (b : q4) : q4 := X4 (s * w0 a + t * w0 b) (s * w1 a + t * w1 b) (s * w2 a + t * w2 b) (s * w3 a + t * w3 b).
Definition sc4 (s : R) (a : q4) : q4 := X4 (s * w0 a) (s * w1 a) (s * w2 a) (s * w3 a).
Definition nrm4 (a : q4) : R := sqrt (dotp4 a a).
Definition part3 (a : q4) : pt := V3 (w0 a) (w1 a) (w2 a).
Definition unit4 (a : q4) : Prop := dotp4 a a = 1.
Definition dst4 (a b : q4) : R := nrm4 (lin4 1 a (-1) b).
(** The i-th component. *)
Definition comp4 {T} (a : v4 T) (i : nat) : T := match i with O => w0 a | 1%nat => w1 a | 2%nat => w2 a | _ => w3 a end.
Definition angle4 (a b : q4) (theta : R) : Prop := 0 <= theta <= PI /\ dotp4 a b = nrm4 a * nrm4 b * cos theta.
