(** Specification of the view volume, independent of the model's functions. *)
From Coq Require Import Reals List Bool.
From Verif Require Import Vec3Model GeoTypes GeoSpec FrustumModel.
Import ListNotations.
Open Scope R_scope.

Definition xprod (a b : pt) : pt := V3 (vy a * vz b - vz a * vy b) (vz a * vx b - vx a * vz b) (vx a * vy b - vy a * vx b).
(** The direction to the viewer's right, and the three coordinates of a point as seen from the eye. *)
Definition fright (f : frustum R) : pt := match fhand f with FrustumRightHanded => xprod (ffront f) (fup f) | _ => xprod (fup f) (ffront f) end.
Definition view_x (f : frustum R) (p : pt) : R := dot (minus p (fpos f)) (fright f).
Definition view_y (f : frustum R) (p : pt) : R := dot (minus p (fpos f)) (fup f).
Definition depth (f : frustum R) (p : pt) : R := dot (minus p (fpos f)) (ffront f).
(** Half the width and height of the cross section at a depth. *)
Definition half_w (f : frustum R) (z : R) : R := match ftype f with PerspectiveFrustum => tan (fhw f / 2) * z | _ => fhw f / 2 end.
Definition half_h (f : frustum R) (z : R) : R := match ftype f with PerspectiveFrustum => tan (fvh f / 2) * z | _ => fvh f / 2 end.
(** The closed region of the frustum. *)
Definition in_frustum (f : frustum R) (p : pt) : Prop :=
  fnear f <= depth f p <= ffar f /\ - half_w f (depth f p) <= view_x f p <= half_w f (depth f p) /\ - half_h f (depth f p) <= view_y f p <= half_h f (depth f p).
(** A properly set up frustum. *)
Definition frustum_ok (f : frustum R) : Prop :=
  unitv (ffront f) /\ unitv (fup f) /\ orth (ffront f) (fup f) /\ 0 < fnear f < ffar f /\
  match ftype f with
  | InvalidFrustum => False
  | PerspectiveFrustum => 0 < fhw f < PI /\ 0 < fvh f < PI
  | OrthographicFrustum => 0 < fhw f /\ 0 < fvh f
  end.
(** The point seen at the given coordinates. *)
Definition view_point (f : frustum R) (x y z : R) : pt := plus (fpos f) (plus (scale x (fright f)) (plus (scale y (fup f)) (scale z (ffront f)))).
