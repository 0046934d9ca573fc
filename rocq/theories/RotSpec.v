(** Rotations of R^3, for the specifications of the quaternion and rotation-matrix functions. *)
From Coq Require Import Reals.
From Verif Require Import Vec3Model GeoTypes GeoSpec MatModel MatSpec.
Open Scope R_scope.

(** The cross product. *)
Definition crossp (a b : pt) : pt := V3 (vy a * vz b - vz a * vy b) (vz a * vx b - vx a * vz b) (vx a * vy b - vy a * vx b).
(** Unit quaternions. *)
Definition unitq (q : quat R) : Prop := qx q * qx q + qy q * qy q + qz q * qz q + qw q * qw q = 1.
(** f is the rotation by the angle theta, counterclockwise about the unit axis a: a proper rotation that keeps the axis
    and turns every vector orthogonal to it by theta within the plane orthogonal to the axis. *)
Definition rotates_about (a : pt) (theta : R) (f : pt -> pt) : Prop :=
  rotation f /\ f a = a /\
  forall v, orth a v -> f v = plus (scale (cos theta) v) (scale (sin theta) (crossp a v)).
(** The angle between two vectors: the number in [0,pi] with the right cosine. *)
Definition angle_between (a b : pt) (theta : R) : Prop := 0 <= theta <= PI /\ dot a b = norm a * norm b * cos theta.
