(** Boxes as sets of points: the vocabulary for C19-C25.  Uses the data members only, none of the model's functions. *)
From Coq Require Import Reals List.
From Verif Require Import Num Vec3Model GeoTypes GeoSpec.
Import ListNotations.

(** For any ordered scalar type: p lies in the closed box b. *)
Definition inside {T} `{Num T} (b : aabb T) (p : vec T) : Prop :=
  (nleb (vx (minPoint b)) (vx p) = true /\ nleb (vx p) (vx (maxPoint b)) = true) /\
  (nleb (vy (minPoint b)) (vy p) = true /\ nleb (vy p) (vy (maxPoint b)) = true) /\
  (nleb (vz (minPoint b)) (vz p) = true /\ nleb (vz p) (vz (maxPoint b)) = true).
(** ... strictly inside. *)
Definition interior {T} `{Num T} (b : aabb T) (p : vec T) : Prop :=
  (nltb (vx (minPoint b)) (vx p) = true /\ nltb (vx p) (vx (maxPoint b)) = true) /\
  (nltb (vy (minPoint b)) (vy p) = true /\ nltb (vy p) (vy (maxPoint b)) = true) /\
  (nltb (vz (minPoint b)) (vz p) = true /\ nltb (vz p) (vz (maxPoint b)) = true).
(** Box b is part of box c. *)
Definition within {T} `{Num T} (b c : aabb T) : Prop :=
  (nleb (vx (minPoint c)) (vx (minPoint b)) = true /\ nleb (vx (maxPoint b)) (vx (maxPoint c)) = true) /\
  (nleb (vy (minPoint c)) (vy (minPoint b)) = true /\ nleb (vy (maxPoint b)) (vy (maxPoint c)) = true) /\
  (nleb (vz (minPoint c)) (vz (minPoint b)) = true /\ nleb (vz (maxPoint b)) (vz (maxPoint c)) = true).
(** Same corner coordinates (0 and -0 are the same number). *)
Definition same_box {T} `{Num T} (b c : aabb T) : Prop := within b c /\ within c b.
Definition nonempty {T} `{Num T} (b : aabb T) : Prop :=
  nleb (vx (minPoint b)) (vx (maxPoint b)) = true /\ nleb (vy (minPoint b)) (vy (maxPoint b)) = true /\
  nleb (vz (minPoint b)) (vz (maxPoint b)) = true.
(** Not NaN. *)
Definition okv {T} `{OrdLaws T} (v : vec T) : Prop := ok (vx v) /\ ok (vy v) /\ ok (vz v).
Definition okb {T} `{OrdLaws T} (b : aabb T) : Prop := okv (minPoint b) /\ okv (maxPoint b).

Open Scope R_scope.
(** Over the reals, point sets of the primitives. *)
Definition in_box (b : aabb R) (p : pt) : Prop :=
  vx (minPoint b) <= vx p <= vx (maxPoint b) /\ vy (minPoint b) <= vy p <= vy (maxPoint b) /\ vz (minPoint b) <= vz p <= vz (maxPoint b).
Definition box_ok (b : aabb R) : Prop :=
  vx (minPoint b) <= vx (maxPoint b) /\ vy (minPoint b) <= vy (maxPoint b) /\ vz (minPoint b) <= vz (maxPoint b).
Definition in_sphere (s : sphere R) (p : pt) : Prop := dist (spos s) p <= srad s.
Definition on_segment (s : segment R) (p : pt) : Prop :=
  exists t, 0 <= t <= 1 /\ p = plus (seg_a s) (scale t (minus (seg_b s) (seg_a s))).
Definition in_triangle (t : triangle R) (p : pt) : Prop :=
  exists u v w, 0 <= u /\ 0 <= v /\ 0 <= w /\ u + v + w = 1 /\
    p = plus (scale u (tri_a t)) (plus (scale v (tri_b t)) (scale w (tri_c t))).
Definition in_capsule (c : capsule R) (p : pt) : Prop := exists q, on_segment (cap_l c) q /\ dist q p <= cap_r c.
Definition in_obb (o : obb R) (p : pt) : Prop :=
  exists x y z, - vx (orad o) <= x <= vx (orad o) /\ - vy (orad o) <= y <= vy (orad o) /\ - vz (orad o) <= z <= vz (orad o) /\
    p = plus (opos o) (plus (scale x (oaxis0 o)) (plus (scale y (oaxis1 o)) (scale z (oaxis2 o)))).

(** A parameter range whose ends may be infinite. *)
Definition in_range (lo hi : ext R) (t : R) : Prop :=
  match lo with MInf => True | Fin a => a <= t | PInf => False end /\
  match hi with MInf => False | Fin b => t <= b | PInf => True end.
