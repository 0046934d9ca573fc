(** Data members of the geometry classes (/repo/src/Geometry/*.h) and of the matrix and quaternion classes. *)
From Verif Require Import Num Vec3Model.

(** AABB.h:43-46. *)
Record aabb (T : Type) := Box { minPoint : vec T; maxPoint : vec T }.
Arguments Box {T}. Arguments minPoint {T}. Arguments maxPoint {T}.
(** Sphere.h:30-33. *)
Record sphere (T : Type) := Sph { spos : vec T; srad : T }.
Arguments Sph {T}. Arguments spos {T}. Arguments srad {T}.
(** LineSegment.h:34-37. *)
Record segment (T : Type) := Seg { seg_a : vec T; seg_b : vec T }.
Arguments Seg {T}. Arguments seg_a {T}. Arguments seg_b {T}.
(** Line.h:34-40. *)
Record line (T : Type) := Ln { lpos : vec T; ldir : vec T }.
Arguments Ln {T}. Arguments lpos {T}. Arguments ldir {T}.
(** Ray.h:36-41. *)
Record ray (T : Type) := Ry { rpos : vec T; rdir : vec T }.
Arguments Ry {T}. Arguments rpos {T}. Arguments rdir {T}.
(** Triangle.h:38-43. *)
Record triangle (T : Type) := Tri { tri_a : vec T; tri_b : vec T; tri_c : vec T }.
Arguments Tri {T}. Arguments tri_a {T}. Arguments tri_b {T}. Arguments tri_c {T}.
(** Capsule.h:37-42. *)
Record capsule (T : Type) := Cap { cap_l : segment T; cap_r : T }.
Arguments Cap {T}. Arguments cap_l {T}. Arguments cap_r {T}.
(** OBB.h:36-49. *)
Record obb (T : Type) := Obb { opos : vec T; orad : vec T; oaxis0 : vec T; oaxis1 : vec T; oaxis2 : vec T }.
Arguments Obb {T}. Arguments opos {T}. Arguments orad {T}. Arguments oaxis0 {T}. Arguments oaxis1 {T}. Arguments oaxis2 {T}.
(** Plane.h:36-48. *)
Record plane (T : Type) := Pln { pnormal : vec T; pd : T }.
Arguments Pln {T}. Arguments pnormal {T}. Arguments pd {T}.
(** float3x3.h: three rows. *)
Record mat3 (T : Type) := M3 { row0 : vec T; row1 : vec T; row2 : vec T }.
Arguments M3 {T}. Arguments row0 {T}. Arguments row1 {T}. Arguments row2 {T}.
(** float3x4.h: three rows of four; the fourth column is the translation. *)
Record mat34 (T : Type) := M34 { lin34 : mat3 T; trans34 : vec T }.
Arguments M34 {T}. Arguments lin34 {T}. Arguments trans34 {T}.
(** Quat.h: x, y, z, w. *)
Record quat (T : Type) := Q4 { qx : T; qy : T; qz : T; qw : T }.
Arguments Q4 {T}. Arguments qx {T}. Arguments qy {T}. Arguments qz {T}. Arguments qw {T}.

(** A float that may be FLOAT_INF (MathConstants.h:59): used for parameter ranges of lines and rays, which are only
    compared, never computed with, while infinite. *)
Inductive ext (T : Type) := MInf | Fin (x : T) | PInf.
Arguments MInf {T}. Arguments Fin {T}. Arguments PInf {T}.

Section MatVec.
  Context {T : Type} `{NT : Num T}.
  Open Scope num_scope.
  (** float3x3.cpp:1216-1221 (float3x3 times float3; float3x3.h:733 MulPos, 739 MulDir are the same function), and
      float3x4.cpp:1104-1113 [TransformPos] (non-SSE; 1718 MulPos). *)
  Definition mulv (m : mat3 T) (v : vec T) : vec T := V3 (Dot (row0 m) v) (Dot (row1 m) v) (Dot (row2 m) v).
  Definition mulpos34 (m : mat34 T) (v : vec T) : vec T :=
    let l := lin34 m in let t := trans34 m in
    V3 (vx (row0 l) * vx v + vy (row0 l) * vy v + vz (row0 l) * vz v + vx t)
       (vx (row1 l) * vx v + vy (row1 l) * vy v + vz (row1 l) * vz v + vy t)
       (vx (row2 l) * vx v + vy (row2 l) * vy v + vz (row2 l) * vz v + vz t).
End MatVec.
