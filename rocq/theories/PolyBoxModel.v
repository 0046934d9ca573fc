(** Polygon against AABB and OBB (Frustum shares the code): a GJK test of the convex hulls first, then edges against bodies (/repo/src/Geometry/Polygon.cpp). *)
From Coq Require Import ZArith Bool List.
From Verif Require Import Num ScalarModel Vec3Model Vec2Model GeoTypes MatModel AabbModel LineModel RotModel PlaneModel SphereModel TriangleModel CircleModel CapsuleModel ObbModel FrustumModel GjkModel PolygonModel.
Import ListNotations.

Section PolyBox.
  Context {T : Type} `{NT : Num T}.
  (** Polygon.h:65 [AnyPointFast], Polygon.cpp:788-802 [ExtremePoint]; [None]: no vertices, where both are NaN. *)
  Definition shapePoly (ps : list (vec T)) : option (shape T) :=
    match ps with [] => None | p :: _ => Some (Shape p (fun d => match Poly_ExtremePoint ps d with Some e => e | None => (p, n0) end)) end.
  (** Polygon.cpp:543-556 [ConvexIntersects] with AABB, OBB and Frustum, for the support function of the body. *)
  Definition Poly_ConvexIntersects (ps : list (vec T)) (h : shape T) : option bool := option_map (fun s => GJKIntersect s h) (shapePoly ps).
  (** Polygon.cpp:558-580 [Convex_Intersects_Polygon]: the edges of the polygon, from the one that ends in the first vertex, against the body; then the
      edges of the body against the polygon.  The body is given by its segment test and its list of edges. *)
  Fixpoint outlineHits (hits : segment T -> bool) (a : vec T) (vs : list (vec T)) : bool :=
    match vs with
    | [] => false
    | b :: rest => if hits (Seg a b) then true else outlineHits hits b rest
    end.
  Definition Convex_IntersectsPolygon (hits : segment T -> bool) (edges : list (segment T)) (ps : list (vec T)) : option bool :=
    match ps with
    | [] => None
    | p :: _ => Some (if outlineHits hits (last ps p) ps then true else existsb (Poly_IntersectsSeg ps) edges)
    end.
  Definition Poly_IntersectsBody (ps : list (vec T)) (h : shape T) (hits : segment T -> bool) (edges : list (segment T)) : option bool :=
    match Poly_ConvexIntersects ps h with
    | Some true => Convex_IntersectsPolygon hits edges ps
    | r => r
    end.
  (** Polygon.cpp:582-590 [Intersects(AABB)], 592-600 [Intersects(OBB)]; 602-610 instantiate the same code with Frustum. *)
  Definition Poly_IntersectsAABB (ps : list (vec T)) (b : aabb T) : option bool :=
    Poly_IntersectsBody ps (shapeAABB b) (fun s => fst (fst (AABB_IntersectsSegment b s))) (map (AABB_Edge b) (seq 0 12)).
  Definition Poly_IntersectsOBB (ps : list (vec T)) (o : obb T) : option bool :=
    Poly_IntersectsBody ps (shapeOBB o) (fun s => fst (fst (OBB_IntersectsSeg o s))) (map (OBB_Edge o) (seq 0 12)).
End PolyBox.
