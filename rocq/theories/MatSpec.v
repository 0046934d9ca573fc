(** Linear and affine maps of R^3 and linear maps of R^4: the vocabulary of the specifications of the matrix classes.
    A matrix is judged by what it does to vectors; only the records of elements are shared with the model. *)
From Coq Require Import Reals.
From Verif Require Import Vec3Model GeoTypes MatModel GeoSpec.
Open Scope R_scope.

(** The linear map a 3x3 matrix denotes, and the affine map a 3x4 matrix denotes. *)
Definition apply (m : mat3 R) (v : pt) : pt := V3 (dot (row0 m) v) (dot (row1 m) v) (dot (row2 m) v).
Definition apply34 (p : mat34 R) (v : pt) : pt := plus (apply (lin34 p) v) (trans34 p).
(** What multiplying a row vector from the left denotes: the transposed map. *)
Definition applyT (m : mat3 R) (v : pt) : pt := plus (plus (scale (vx v) (row0 m)) (scale (vy v) (row1 m))) (scale (vz v) (row2 m)).
(** Two matrices undo each other. *)
Definition inverses (a b : mat3 R) : Prop := forall v, apply a (apply b v) = v /\ apply b (apply a v) = v.
Definition inverses34 (a b : mat34 R) : Prop := forall v, apply34 a (apply34 b v) = v /\ apply34 b (apply34 a v) = v.
(** The unit vectors, whose images are the columns. *)
Definition ex : pt := V3 1 0 0.
Definition ey : pt := V3 0 1 0.
Definition ez : pt := V3 0 0 1.
(** Columns are pairwise orthogonal / of equal length / of unit length. *)
Definition col_orthogonal (m : mat3 R) : Prop :=
  orth (apply m ex) (apply m ey) /\ orth (apply m ex) (apply m ez) /\ orth (apply m ey) (apply m ez).
Definition uniform_scale (m : mat3 R) : Prop :=
  norm (apply m ex) = norm (apply m ey) /\ norm (apply m ex) = norm (apply m ez).
Definition isometry (f : pt -> pt) : Prop := forall a b, dist (f a) (f b) = dist a b.
(** A map is a proper rotation about the origin: linear, keeping inner products and handedness. *)
Definition rotation (f : pt -> pt) : Prop :=
  (forall a b, dot (f a) (f b) = dot a b) /\ (forall a b c, volume (f a) (f b) (f c) = volume a b c).
Definition symmetric3 (m : mat3 R) : Prop := forall a b, dot (apply m a) b = dot a (apply m b).
(** Four dimensions. *)
Definition dotp4 (a b : v4 R) : R := w0 a * w0 b + w1 a * w1 b + w2 a * w2 b + w3 a * w3 b.
Definition apply4 (m : mat4 R) (v : v4 R) : v4 R := X4 (dotp4 (r40 m) v) (dotp4 (r41 m) v) (dotp4 (r42 m) v) (dotp4 (r43 m) v).
Definition inverses4 (a b : mat4 R) : Prop := forall v, apply4 a (apply4 b v) = v /\ apply4 b (apply4 a v) = v.
(** Homogeneous coordinates of a point and of a direction; the point a homogeneous vector denotes. *)
Definition hpoint (v : pt) : v4 R := X4 (vx v) (vy v) (vz v) 1.
Definition hdir (v : pt) : v4 R := X4 (vx v) (vy v) (vz v) 0.
Definition dehom (v : v4 R) : pt := V3 (w0 v / w3 v) (w1 v / w3 v) (w2 v / w3 v).
(** View volumes, by the depth of a point in front of the eye, and the clip-space cube they should map to. *)
Definition ortho_volume (depth n f h v : R) (p : pt) : Prop := n <= depth <= f /\ - (h / 2) <= vx p <= h / 2 /\ - (v / 2) <= vy p <= v / 2.
Definition persp_volume (depth n f h v : R) (p : pt) : Prop :=
  n <= depth <= f /\ - (h / 2) <= vx p * (n / depth) <= h / 2 /\ - (v / 2) <= vy p * (n / depth) <= v / 2.
Definition clip_cube (zlo : R) (c : v4 R) : Prop :=
  0 < w3 c /\ - w3 c <= w0 c <= w3 c /\ - w3 c <= w1 c <= w3 c /\ zlo * w3 c <= w2 c <= w3 c.
