(** The overloads that forward a polygon, frustum or polyhedron to another query, and the remaining signed distances from a plane. *)
From Coq Require Import ZArith Bool List.
From Verif Require Import Num ScalarModel Vec3Model GeoTypes MatModel AabbModel LineModel RotModel PlaneModel SphereModel CapsuleModel ObbModel FrustumModel TriangleModel PolygonModel PolyTopoModel PolyhedronModel.
Import ListNotations.

Section ShapeSet.
  Context {T : Type} `{TT : NumTrig T}.
  (** AABB.cpp:661-674 [Contains(Polygon)], [Contains(Frustum)], [Contains(Polyhedron)].  [None]: no vertices, where the code tests the negative infinite box. *)
  Definition AABB_ContainsPolygon (b : aabb T) (ps : list (vec T)) : option bool := option_map (AABB_ContainsAABB b) (Poly_MinimalEnclosingAABB ps).
  Definition AABB_ContainsFrustum (b : aabb T) (f : frustum T) : bool := AABB_ContainsAABB b (Frustum_MinimalEnclosingAABB f).
  Definition AABB_ContainsPolyhedron (b : aabb T) (P : polyhedron T) : option bool := option_map (AABB_ContainsAABB b) (Hed_MinimalEnclosingAABB P).
  (** AABB.cpp:1091-1104 [Enclose(Frustum)], [Enclose(Polygon)], [Enclose(Polyhedron)]; AABB.h:445 [Enclose(AABB)] with AABB.cpp:1058-1062.  Without vertices the
      enclosed box is the negative infinite one, which changes nothing. *)
  Definition AABB_EncloseAABB (b c : aabb T) : aabb T := AABB_EncloseMinMax b (minPoint c) (maxPoint c).
  Definition AABB_EncloseFrustum (b : aabb T) (f : frustum T) : aabb T := AABB_EncloseAABB b (Frustum_MinimalEnclosingAABB f).
  Definition AABB_EnclosePolygon (b : aabb T) (ps : list (vec T)) : aabb T := match Poly_MinimalEnclosingAABB ps with Some c => AABB_EncloseAABB b c | None => b end.
  Definition AABB_EnclosePolyhedron (b : aabb T) (P : polyhedron T) : aabb T := match Hed_MinimalEnclosingAABB P with Some c => AABB_EncloseAABB b c | None => b end.
  (** Sphere.cpp:223-230, Capsule.cpp:368-375, OBB.cpp:2459-2466, Frustum.cpp:620-627 [Contains(Frustum)]: all eight [CornerPoint]s. *)
  Definition frustumCorners (f : frustum T) : list (vec T) := map (Frustum_CornerPoint f) (seq 0 8).
  Definition Sphere_ContainsFrustum (s : sphere T) (f : frustum T) : bool := forallb (Sphere_Contains s) (frustumCorners f).
  Definition Capsule_ContainsFrustum (c : capsule T) (f : frustum T) : bool := forallb (Capsule_Contains c) (frustumCorners f).
  Definition OBB_ContainsFrustum (o : obb T) (f : frustum T) : bool := forallb (OBB_Contains o) (frustumCorners f).
  Definition Frustum_ContainsFrustum (g f : frustum T) : bool := forallb (Frustum_Contains g) (frustumCorners f).
  (** Sphere.cpp:796-809 [Enclose(Polygon)], [Enclose(Polyhedron)], [Enclose(Frustum)] (726-744 [Sphere_Enclose<T, n>]). *)
  Definition Sphere_EnclosePolygon (s : sphere T) (ps : list (vec T)) : sphere T := Sphere_EnclosePts s ps.
  Definition Sphere_EnclosePolyhedron (s : sphere T) (P : polyhedron T) : sphere T := Sphere_EnclosePts s (hv P).
  Definition Sphere_EncloseFrustum (s : sphere T) (f : frustum T) : sphere T := Sphere_EnclosePts s (frustumCorners f).
  (** Plane.cpp:231-242 [Plane_SignedDistance<T>] at 246-256: capsule, frustum, polygon, polyhedron, sphere and triangle. *)
  Definition Plane_SignedDistanceCapsule (P : plane T) (c : capsule T) : T := Plane_SignedDistanceRange P (Capsule_ProjectToAxis c (pnormal P)).
  Definition Plane_SignedDistanceFrustum (P : plane T) (f : frustum T) : T := Plane_SignedDistanceRange P (Frustum_ProjectToAxis f (pnormal P)).
  Definition Plane_SignedDistancePolygon (P : plane T) (ps : list (vec T)) : option T := option_map (Plane_SignedDistanceRange P) (Poly_ProjectToAxis ps (pnormal P)).
  Definition Plane_SignedDistancePolyhedron (P : plane T) (H : polyhedron T) : T := Plane_SignedDistanceRange P (Hed_ProjectToAxis H (pnormal P)).
  Definition Plane_SignedDistanceSphere (P : plane T) (s : sphere T) : T := Plane_SignedDistanceRange P (Sphere_ProjectToAxis s (pnormal P)).
  Definition Plane_SignedDistanceTri (P : plane T) (t : triangle T) : T := Plane_SignedDistanceRange P (Tri_ProjectToAxis t (pnormal P)).
  (** Plane.cpp:702-709 [Intersects(Frustum)], 711-720 [Intersects(Polyhedron)]. *)
  Definition Plane_IntersectsFrustum (P : plane T) (f : frustum T) : bool :=
    let sign := Plane_IsOnPositiveSide P (Frustum_CornerPoint f 0) in
    existsb (fun i => negb (Bool.eqb sign (Plane_IsOnPositiveSide P (Frustum_CornerPoint f i)))) (seq 1 7).
  Definition Plane_IntersectsPolyhedron (P : plane T) (H : polyhedron T) : bool := Plane_IntersectsVertices P (hv H).
  (** Plane.cpp:457-467 [Contains(Polygon)]. *)
  Definition Plane_ContainsPolygon (P : plane T) (ps : list (vec T)) (epsilon : T) : bool :=
    match ps with
    | [] => false
    | [p] => Plane_Contains P p epsilon
    | [p; q] => Plane_Contains P p epsilon && Plane_Contains P q epsilon
    | _ => match Poly_PlaneCCW ps with Some o => Plane_SetEquals P o epsilon | None => false end
    end.
End ShapeSet.
