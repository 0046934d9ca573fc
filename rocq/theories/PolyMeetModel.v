(** Polygon against spheres, capsules and line segments: the queries that run over the triangulation (/repo/src/Geometry/Polygon.cpp). *)
From Coq Require Import ZArith Bool List.
From Verif Require Import Num ScalarModel Vec3Model Vec2Model GeoTypes MatModel AabbModel LineModel RotModel PlaneModel SphereModel TriangleModel CircleModel CapsuleModel PolygonModel.
Import ListNotations.

Section PolyMeet.
  Context {T : Type} `{NT : Num T}.
  Local Open Scope num_scope.
  (** Polygon.cpp:706-715 [Intersects(Sphere)]; Sphere.cpp:634-637 forwards to it. *)
  Definition Poly_IntersectsSphere (ps : list (vec T)) (s : sphere T) : bool := existsb (fun t => fst (Tri_IntersectsSphere t s)) (Poly_Triangulate ps).
  (** Polygon.cpp:717-726 [Intersects(Capsule)], Triangle.cpp:855-858; Capsule.cpp:438-441 forwards to it. *)
  Definition Poly_IntersectsCapsule (ps : list (vec T)) (c : capsule T) : bool := existsb (Capsule_IntersectsTri c) (Poly_Triangulate ps).
  (** Polygon.cpp:748-774 [ClosestPoint(LineSegment)]: the point on the polygon and the one on the segment.  [None]: no triangles, where the code
      returns NaN.  FLT_MAX is taken to be above every squared distance: the first triangle is always taken. *)
  Definition Poly_ClosestPointSeg (ps : list (vec T)) (s : segment T) : option (vec T * vec T) :=
    match map (fun t => Tri_ClosestPointSeg t s) (Poly_Triangulate ps) with
    | [] => None
    | pq :: rest => Some (fst (fold_left (fun best pq => let d := DistanceSq (fst pq) (snd pq) in if d <? snd best then (pq, d) else best) rest (pq, DistanceSq (fst pq) (snd pq))))
    end.
End PolyMeet.
