(** Polygon against polygon, in planes that are not parallel (/repo/src/Geometry/Polygon.cpp). *)
From Coq Require Import ZArith Bool List.
From Verif Require Import Num ScalarModel Vec3Model Vec2Model GeoTypes MatModel AabbModel LineModel RotModel PlaneModel SphereModel TriangleModel PolygonModel.
Import ListNotations.

Section PolyPoly.
  Context {T : Type} `{NT : Num T}.
  Local Open Scope num_scope.
  (** Polygon.cpp:65-72 [Edge] for all the indices 0 .. NumEdges()-1 in turn (one segment per vertex; the empty and one-vertex special cases of [Edge] agree: no index, and (p0, p0)). *)
  Definition Poly_Edges (ps : list (vec T)) : list (segment T) :=
    match ps with [] => [] | p :: rest => map (fun ab => Seg (fst ab) (snd ab)) (combine ps (rest ++ [p])) end.
  (** Polygon.cpp:626-633 and 638-645: the body of the two loops of [Polygon_Intersects_Polygon]; the default squared thickness 1e-5 is Polygon.h:278. *)
  Definition edgeThrough (ps : list (vec T)) (P : plane T) (s : segment T) : bool :=
    let '(hit, t) := IntersectLinePlane (pnormal P) (pd P) (seg_a s) (vsub (seg_b s) (seg_a s)) in
    if negb hit || (t <? n0) || (t >? n1) then false else Poly_Contains ps (Seg_GetPoint s t) (nlit 1 100000).
  (** Polygon.cpp:612-648 [Polygon_Intersects_Polygon], also called by [Intersects(Polygon)] (696-699).  [None]: a polygon without a plane, or parallel
      planes (the branch 649-690, not modelled). *)
  Definition Poly_IntersectsPolygonAcross (ps os : list (vec T)) : option bool :=
    match Poly_PlaneCCW ps, Poly_PlaneCCW os with
    | Some P, Some Q =>
        if negb (IsZero (Cross (pnormal P) (pnormal Q)))
        then Some (if existsb (edgeThrough ps P) (Poly_Edges os) then true else existsb (edgeThrough os Q) (Poly_Edges ps))
        else None
    | _, _ => None
    end.
End PolyPoly.
