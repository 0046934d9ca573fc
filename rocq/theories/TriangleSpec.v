(** Triangles: barycentric combinations, the plane of a triangle, the open box. *)
From Coq Require Import Reals.
From Verif Require Import Vec3Model GeoTypes GeoSpec AabbSpec LineSpec.
Open Scope R_scope.

Definition bary (t : triangle R) (u v w : R) : pt := plus (scale u (tri_a t)) (plus (scale v (tri_b t)) (scale w (tri_c t))).
(** The three corners do not lie on one line. *)
Definition proper_tri (t : triangle R) : Prop :=
  forall u v, plus (scale u (minus (tri_b t) (tri_a t))) (scale v (minus (tri_c t) (tri_a t))) = origin -> u = 0 /\ v = 0.
Definition in_tri_plane (t : triangle R) (p : pt) : Prop := exists u v w, u + v + w = 1 /\ p = bary t u v w.
(** The triangle enlarged: every barycentric coordinate may fall short of zero by e. *)
Definition in_enlarged (t : triangle R) (e : R) (p : pt) : Prop :=
  exists u v w, - e <= u /\ - e <= v /\ - e <= w /\ u + v + w = 1 /\ p = bary t u v w.
Definition in_open_box (b : aabb R) (p : pt) : Prop :=
  vx (minPoint b) < vx p < vx (maxPoint b) /\ vy (minPoint b) < vy p < vy (maxPoint b) /\ vz (minPoint b) < vz p < vz (maxPoint b).
Definition edge_of (t : triangle R) (s : segment R) : Prop :=
  s = Seg (tri_a t) (tri_b t) \/ s = Seg (tri_b t) (tri_c t) \/ s = Seg (tri_c t) (tri_a t).
Definition vertex_of (t : triangle R) (p : pt) : Prop := p = tri_a t \/ p = tri_b t \/ p = tri_c t.
(** The coordinate axis along which n is largest; of several, the first. *)
Definition main_axis (n e : pt) : Prop :=
  (e = V3 1 0 0 /\ Rabs (vy n) <= Rabs (vx n) /\ Rabs (vz n) <= Rabs (vx n)) \/
  (e = V3 0 1 0 /\ Rabs (vx n) < Rabs (vy n) /\ Rabs (vz n) <= Rabs (vy n)) \/
  (e = V3 0 0 1 /\ Rabs (vx n) < Rabs (vz n) /\ Rabs (vy n) < Rabs (vz n)).
