(** Plane (/repo/src/Geometry/Plane.cpp), scalar build: [normal . x = d].

    Optional output pointers are modelled as always given.  Not modelled here: [Project(Line)] and [Project(Ray)]
    (Plane.cpp:319-339 read the uninitialised direction of a default constructed object), [Refract] (forwards to float3, see
    Vec3Model), [IsDegenerate] (tests for non-finite floats), [Transform(float4x4)] (an assertion, then the float3x4 form),
    string conversion, and the overloads for Frustum, which take its corner points. *)
From Coq Require Import ZArith Bool List.
From Verif Require Import Num ScalarModel Vec3Model GeoTypes MatModel AabbModel LineModel RotModel.
Import ListNotations.

(** Circle.h:35-47. *)
Record circle (T : Type) := Circ { circ_pos : vec T; circ_normal : vec T; circ_r : T }.
Arguments Circ {T}. Arguments circ_pos {T}. Arguments circ_normal {T}. Arguments circ_r {T}.

Section Plane.
  Context {T : Type} `{NT : Num T}.
  Local Open Scope num_scope.
  Implicit Types (P : plane T) (p q v : vec T) (l : line T) (r : ray T) (s : segment T) (t : triangle T).

  (** Plane.cpp:88-96, 98-108 [Set]; 61-81 constructors from a ray, line or segment and a normal; 49-53 stores its arguments. *)
  Definition Plane_Set3 (v1 v2 v3 : vec T) : plane T :=
    let normal := Cross (vsub v2 v1) (vsub v3 v1) in
    let len := Length normal in
    let normal := vdivs normal len in
    Pln normal (Dot normal v1).
  Definition Plane_Set (point normal : vec T) : plane T := Pln normal (Dot point normal).
  Definition Plane_FromRay r (normal : vec T) : plane T := Plane_Set (rpos r) (Normalized (vsub normal (ProjectToNorm normal (rdir r)))).
  Definition Plane_FromLine l (normal : vec T) : plane T := Plane_Set (lpos l) (Normalized (vsub normal (ProjectToNorm normal (ldir l)))).
  Definition Plane_FromSegment s (normal : vec T) : plane T :=
    Plane_Set (seg_a s) (Normalized (vsub normal (ProjectTo normal (vsub (seg_b s) (seg_a s))))).
  (** Plane.cpp:110-114 [ReverseNormal], 116-123 [PointOnPlane]. *)
  Definition Plane_ReverseNormal P : plane T := Pln (vneg (pnormal P)) (- pd P).
  Definition Plane_PointOnPlane P : vec T := vmuls (pnormal P) (pd P).
  (** Plane.cpp:222-229 [SignedDistance], 202-205 [Distance], 298-312 [Project], [ProjectToNegativeHalf],
      [ProjectToPositiveHalf], 281-291 [Mirror]. *)
  Definition Plane_SignedDistance P p : T := Dot (pnormal P) p - pd P.
  Definition Plane_Distance P p : T := Abs (Plane_SignedDistance P p).
  Definition Plane_Project P p : vec T := vsub p (smulv (Dot (pnormal P) p - pd P) (pnormal P)).
  Definition Plane_ProjectToNegativeHalf P p : vec T := vsub p (smulv (Max n0 (Dot (pnormal P) p - pd P)) (pnormal P)).
  Definition Plane_ProjectToPositiveHalf P p : vec T := vsub p (smulv (Min n0 (Dot (pnormal P) p - pd P)) (pnormal P)).
  Definition Plane_Mirror P p : vec T := vsub p (smulv (n2 * (Dot p (pnormal P) - pd P)) (pnormal P)).
  (** Plane.cpp:258-261 [OrthoProjection], 276-279 [MirrorMatrix]. *)
  Definition Plane_OrthoProjection P : mat34 T := OrthographicProjection34 P.
  Definition Plane_MirrorMatrix P : mat34 T := Mirror34 P.
  (** Plane.cpp:125-137 [Point]. *)
  Definition Plane_Point P (u v : T) : vec T :=
    let '(b1, b2) := PerpendicularBasis (pnormal P) in vadd (vadd (Plane_PointOnPlane P) (smulv u b1)) (smulv v b2).
  Definition Plane_PointRef P (u v : T) (referenceOrigin : vec T) : vec T :=
    let '(b1, b2) := PerpendicularBasis (pnormal P) in vadd (vadd (Plane_Project P referenceOrigin) (smulv u b1)) (smulv v b2).
  (** Plane.cpp:139-142 [Translate], 144-148, 151-160, 168-172 [Transform]. *)
  Definition Plane_Translate P (offset : vec T) : plane T := Pln (pnormal P) (pd P - Dot (pnormal P) offset).
  Definition Plane_Transform3 P (transform : mat3 T) : plane T :=
    let it := InverseTransposed transform in Pln (mulv it (pnormal P)) (pd P).
  Definition Plane_Transform34 P (transform : mat34 T) : plane T :=
    let '(success, r) := Inverse3 (lin34 transform) (nlit 1%Z 1000000%positive) in
    Pln (TransformLeft r (pnormal P)) (pd P + Dot (pnormal P) (mulv r (trans34 transform))).
  Definition Plane_TransformQuat P (transform : quat T) : plane T := Plane_Transform3 P (FromQuat transform).
  (** Plane.cpp:174-200. *)
  Definition Plane_IsInPositiveDirection P (directionVector : vec T) : bool := Dot (pnormal P) directionVector >=? n0.
  Definition Plane_IsOnPositiveSide P p : bool := Plane_SignedDistance P p >=? n0.
  Definition Plane_ExamineSide P t : Z :=
    let a := Plane_SignedDistance P (tri_a t) in
    let b := Plane_SignedDistance P (tri_b t) in
    let c := Plane_SignedDistance P (tri_c t) in
    let epsilon := nlit 1%Z 10000%positive in
    if (a >=? - epsilon) && (b >=? - epsilon) && (c >=? - epsilon) then 1%Z
    else if (a <=? epsilon) && (b <=? epsilon) && (c <=? epsilon) then (-1)%Z
    else 0%Z.
  Definition Plane_AreOnSameSide P (p1 p2 : vec T) : bool := Plane_SignedDistance P p1 * Plane_SignedDistance P p2 >=? n0.
  (** LineSegment.cpp:326-333 [Distance(Plane)] = Plane.cpp:207-210, 345-350 [Intersects(Plane)]; Plane.cpp:212-220. *)
  Definition Plane_DistanceSeg P s : T :=
    let aDist := Plane_SignedDistance P (seg_a s) in
    let bDist := Plane_SignedDistance P (seg_b s) in
    if aDist * bDist <? n0 then n0 else Min (Abs aDist) (Abs bDist).
  Definition Seg_IntersectsPlane s P : bool :=
    let d := Plane_SignedDistance P (seg_a s) in let d2 := Plane_SignedDistance P (seg_b s) in d * d2 <=? n0.
  Definition Plane_DistanceSphere P (o : sphere T) : T := Max n0 (Plane_Distance P (spos o) - srad o).
  Definition Plane_DistanceCapsule P (o : capsule T) : T := Max n0 (Plane_DistanceSeg P (cap_l o) - cap_r o).
  (** Plane.cpp:231-242 [Plane_SignedDistance<T>], from the object's projection to the normal; 244-256 its instances.  An
      infinite end of the projection (Line, Ray) makes the product infinite, or NaN when the other end is on the plane; in that
      case the comparison is false and the finite end, 0, is returned. *)
  Definition Plane_SignedDistanceRange P (range : T * T) : T :=
    let pMin := fst range - pd P in let pMax := snd range - pd P in
    if pMin * pMax <=? n0 then n0 else if Abs pMin <? Abs pMax then pMin else pMax.
  Definition Plane_SignedDistanceExt P (range : ext T * ext T) : T :=
    match range with
    | (Fin lo, Fin hi) => Plane_SignedDistanceRange P (lo, hi)
    | (Fin lo, PInf) => if lo - pd P <? n0 then n0 else lo - pd P
    | (MInf, Fin hi) => if n0 <? hi - pd P then n0 else hi - pd P
    | _ => n0
    end.
  Definition Plane_SignedDistanceAABB P (b : aabb T) : T := Plane_SignedDistanceRange P (AABB_ProjectToAxis b (pnormal P)).
  Definition Plane_SignedDistanceSeg P s : T := Plane_SignedDistanceRange P (Seg_ProjectToAxis s (pnormal P)).
  Definition Plane_SignedDistanceLine P l : T := Plane_SignedDistanceExt P (Line_ProjectToAxis l (pnormal P)).
  Definition Plane_SignedDistanceRay P r : T := Plane_SignedDistanceExt P (Ray_ProjectToAxis r (pnormal P)).
  (** Plane.cpp:314-317, 341-348, 350-357 [Project] of a segment, triangle and polygon (its list of points). *)
  Definition Plane_ProjectSeg P s : segment T := Seg (Plane_Project P (seg_a s)) (Plane_Project P (seg_b s)).
  Definition Plane_ProjectTri P t : triangle T := Tri (Plane_Project P (tri_a t)) (Plane_Project P (tri_b t)) (Plane_Project P (tri_c t)).
  Definition Plane_ProjectPolygon P (points : list (vec T)) : list (vec T) := map (Plane_Project P) points.
  (** Plane.cpp:359-376 [ClosestPoint(Ray)], 378-412 [ClosestPoint(LineSegment)]. *)
  Definition Plane_ClosestPointRay P r : vec T :=
    let denom := Dot (pnormal P) (rdir r) in
    if denom =? n0 then Plane_Project P (rpos r)
    else
      let t := (pd P - Dot (pnormal P) (rpos r)) / denom in
      if (t >=? n0) && (t <? nlit 1000000%Z 1%positive) then Ray_GetPoint r t else Plane_Project P (rpos r).
  Definition Plane_ClosestPointSeg P s : vec T :=
    let aDist := Dot (pnormal P) (seg_a s) in
    let bDist := Dot (pnormal P) (seg_b s) in
    let denom := bDist - aDist in
    if EqualAbs denom n0 (nlit 1%Z 1000%positive) then Plane_Project P (if Abs aDist <? Abs bDist then seg_a s else seg_b s)
    else
      let t := (pd P - Dot (pnormal P) (seg_a s)) / (bDist - aDist) in
      Plane_Project P (Seg_GetPoint s (Clamp01 t)).
  (** Plane.cpp:427-455 [Contains]; Plane.h:258 default epsilon 1e-3 for the position of a line or ray. *)
  Definition Plane_Contains P p (distanceThreshold : T) : bool := Plane_Distance P p <=? distanceThreshold.
  Definition Plane_ContainsLine P l (epsilon : T) : bool :=
    Plane_Contains P (lpos l) (nlit 1%Z 1000%positive) && IsPerpendicular (ldir l) (pnormal P) epsilon.
  Definition Plane_ContainsRay P r (epsilon : T) : bool :=
    Plane_Contains P (rpos r) (nlit 1%Z 1000%positive) && IsPerpendicular (rdir r) (pnormal P) epsilon.
  Definition Plane_ContainsSeg P s (epsilon : T) : bool := Plane_Contains P (seg_a s) epsilon && Plane_Contains P (seg_b s) epsilon.
  Definition Plane_ContainsTri P t (epsilon : T) : bool :=
    Plane_Contains P (tri_a t) epsilon && Plane_Contains P (tri_b t) epsilon && Plane_Contains P (tri_c t) epsilon.
  Definition Plane_ContainsCircle P (c : circle T) (epsilon : T) : bool :=
    Plane_Contains P (circ_pos c) epsilon &&
    (EqualAbs (Abs (Dot (pnormal P) (circ_normal c))) n1 (nlit 1%Z 1000%positive) || (circ_r c <=? epsilon)).
  (** Plane.cpp:469-478 [SetEquals], [Equals], 867-880 [IsParallel], [PassesThroughOrigin], [DihedralAngle]. *)
  Definition Plane_SetEquals P (o : plane T) (epsilon : T) : bool :=
    let e3 := nlit 1%Z 1000%positive in
    (vEquals (pnormal P) (pnormal o) e3 && EqualAbs (pd P) (pd o) epsilon) ||
    (vEquals (pnormal P) (vneg (pnormal o)) e3 && EqualAbs (- pd P) (pd o) epsilon).
  Definition Plane_IsParallel P (o : plane T) (epsilon : T) : bool := vEquals (pnormal P) (pnormal o) epsilon.
  Definition Plane_Equals P (o : plane T) (epsilon : T) : bool := Plane_IsParallel P o epsilon && EqualAbs (pd P) (pd o) epsilon.
  Definition Plane_PassesThroughOrigin P (epsilon : T) : bool := Abs (pd P) <=? epsilon.
  Definition Plane_DihedralAngle P (o : plane T) : T := Dot (pnormal P) (pnormal o).
  (** Plane.cpp:480-505 [Intersects(Plane, outLine)]; the default hints of float3::Perpendicular are (0,1,0) and (0,0,1). *)
  Definition Plane_IntersectsPlane P (o : plane T) : option (line T) :=
    let perp := Perpendicular (pnormal P) (pnormal o) (V3 n0 n0 n1) in
    let e3 := nlit 1%Z 1000%positive in
    match SolveAxb (M3 (pnormal P) (pnormal o) perp) (V3 (pd P) (pd o) n0) with
    | Some intersectionPos => Some (Ln intersectionPos (Normalized perp))
    | None =>
      let normalDir := Dot (pnormal P) (pnormal o) in
      if ((n0 <? normalDir) && EqualAbs (pd P) (pd o) e3) || ((normalDir <? n0) && EqualAbs (pd P) (- pd o) e3)
      then Some (Ln (vmuls (pnormal P) (pd P)) (Perpendicular (pnormal o) (V3 n0 n1 n0) (V3 n0 n0 n1)))
      else None
    end.
  (** Plane.cpp:507-551 [Intersects(plane, plane2, outLine, outPoint)]: the point found, if any. *)
  Definition Plane_IntersectsPlanes P (o1 o2 : plane T) : option (vec T) :=
    let e3 := nlit 1%Z 1000%positive in
    if Plane_IsParallel P o1 e3 || Plane_IsParallel P o2 e3 then
      if EqualAbs (pd P) (pd o1) e3 || EqualAbs (pd P) (pd o2) e3
      then option_map (fun outLine => Line_GetPoint outLine n0) (Plane_IntersectsPlane o1 o2) else None
    else if Plane_IsParallel o1 o2 e3 then
      if EqualAbs (pd o1) (pd o2) e3
      then option_map (fun outLine => Line_GetPoint outLine n0) (Plane_IntersectsPlane P o1) else None
    else SolveAxb (M3 (pnormal P) (pnormal o1) (pnormal o2)) (V3 (pd P) (pd o1) (pd o2)).
  (** Plane.cpp:596-634 [IntersectLinePlane]: (return value, t). *)
  Definition IntersectLinePlane (planeNormal : vec T) (planeD : T) (linePos lineDir : vec T) : bool * T :=
    let denom := Dot planeNormal lineDir in
    let t := (planeD - Dot planeNormal linePos) / denom in
    if Abs denom >? nlit 1%Z 10000%positive then (true, t)
    else if negb (denom =? n0) && (Abs t <? nlit 10000%Z 1%positive) then (true, t)
    else (EqualAbs (Dot planeNormal linePos) planeD (nlit 1%Z 1000%positive), n0).
  (** Plane.cpp:637-663 [Intersects] of a ray, line, segment: (return value, dist); 665-668 sphere, 676-687 box, 694-700
      triangle; 711-720 polyhedron, from its list of vertices (702-709 does the same with the eight corners of a frustum). *)
  Definition Plane_IntersectsRay P r : bool * T :=
    let '(success, t) := IntersectLinePlane (pnormal P) (pd P) (rpos r) (rdir r) in (success && (t >=? n0), t).
  Definition Plane_IntersectsLine P l : bool * T := IntersectLinePlane (pnormal P) (pd P) (lpos l) (ldir l).
  Definition Plane_IntersectsSeg P s : bool * T :=
    let '(success, t) := IntersectLinePlane (pnormal P) (pd P) (seg_a s) (Seg_Dir s) in
    let lineSegmentLength := Seg_Length s in
    (success && (t >=? n0) && (t <=? lineSegmentLength), t / lineSegmentLength).
  Definition Plane_IntersectsSphere P (o : sphere T) : bool := Plane_Distance P (spos o) <=? srad o.
  Definition Plane_IntersectsAABB P (b : aabb T) : bool :=
    let c := AABB_CenterPoint b in
    let e := AABB_HalfSize b in
    let r := vx e * Abs (vx (pnormal P)) + vy e * Abs (vy (pnormal P)) + vz e * Abs (vz (pnormal P)) in
    let s := Dot (pnormal P) c - pd P in
    Abs s <=? r.
  Definition Plane_IntersectsTri P t : bool :=
    let a := Plane_SignedDistance P (tri_a t) in
    let b := Plane_SignedDistance P (tri_b t) in
    let c := Plane_SignedDistance P (tri_c t) in
    (a * b <=? n0) || (a * c <=? n0).
  Definition Plane_IntersectsVertices P (vertices : list (vec T)) : bool :=
    match vertices with
    | [] => false
    | v0 :: rest => existsb (fun v => negb (Bool.eqb (Plane_IsOnPositiveSide P v0) (Plane_IsOnPositiveSide P v))) rest
    end.
  (** Plane.cpp:722-747 [Intersects(Circle)]: the intersection points; Circle.cpp:79-82 [ContainingPlane]. *)
  Definition Circle_ContainingPlane (c : circle T) : plane T := Plane_Set (circ_pos c) (circ_normal c).
  Definition Plane_IntersectsCircle P (c : circle T) : list (vec T) :=
    match Plane_IntersectsPlane P (Circle_ContainingPlane c) with
    | None => []
    | Some ln =>
      let ln := Ln (vsub (lpos ln) (circ_pos c)) (ldir ln) in
      let b := n2 * Dot (lpos ln) (ldir ln) in
      let cc := LengthSq (lpos ln) - circ_r c * circ_r c in
      match SolveQuadratic n1 b cc with
      | (_, Some r1, Some r2) => [vadd (circ_pos c) (Line_GetPoint ln r1); vadd (circ_pos c) (Line_GetPoint ln r2)]
      | (_, Some r1, None) => [vadd (circ_pos c) (Line_GetPoint ln r1)]
      | _ => []
      end
    end.
  (** Plane.cpp:749-773 [Clip] of a segment: the part kept. *)
  Definition Plane_Clip P (a b : vec T) : option (vec T * vec T) :=
    let '(intersects, t) := IntersectLinePlane (pnormal P) (pd P) a (vsub b a) in
    if negb intersects || (t <=? n0) || (t >=? n1) then
      if Plane_SignedDistance P a <=? n0 then None else Some (a, b)
    else
      let pt := vadd a (vmuls (vsub b a) t) in
      if Plane_IsOnPositiveSide P a then Some (a, pt) else Some (pt, b).
  (** Plane.cpp:775-794 [Clip(Line, outRay)]. *)
  Inductive line_clip := ClipNone | ClipRay (r : ray T) | ClipAll.
  Definition Plane_ClipLine P l : line_clip :=
    let '(intersects, t) := IntersectLinePlane (pnormal P) (pd P) (lpos l) (ldir l) in
    if negb intersects then
      if Plane_SignedDistance P (lpos l) <=? n0 then ClipNone else ClipAll
    else ClipRay (Ry (vadd (lpos l) (vmuls (ldir l) t)) (if Dot (ldir l) (pnormal P) >=? n0 then ldir l else vneg (ldir l))).
  (** Plane.cpp:796-865 [Clip(Triangle, t1, t2)]: the triangles produced. *)
  Definition Plane_ClipTri P t : list (triangle T) :=
    let side0 := Plane_IsOnPositiveSide P (tri_a t) in
    let side1 := Plane_IsOnPositiveSide P (tri_b t) in
    let side2 := Plane_IsOnPositiveSide P (tri_c t) in
    let nPos := ((if side0 then 1 else 0) + (if side1 then 1 else 0) + (if side2 then 1 else 0))%Z in
    if (nPos =? 0)%Z then []
    else if (nPos =? 3)%Z then [t]
    else if (nPos =? 1)%Z then
      let t1 := if side1 then Tri (tri_b t) (tri_c t) (tri_a t)
                else if side2 then Tri (tri_c t) (tri_a t) (tri_b t) else t in
      let '(_, k) := Plane_IntersectsSeg P (Seg (tri_a t1) (tri_b t1)) in
      let b' := vadd (tri_a t1) (vmuls (vsub (tri_b t1) (tri_a t1)) k) in
      let '(_, k') := Plane_IntersectsSeg P (Seg (tri_a t1) (tri_c t1)) in
      [Tri (tri_a t1) b' (vadd (tri_a t1) (vmuls (vsub (tri_c t1) (tri_a t1)) k'))]
    else
      let t1 := if negb side1 then Tri (tri_b t) (tri_c t) (tri_a t)
                else if negb side2 then Tri (tri_c t) (tri_a t) (tri_b t) else t in
      let '(_, k) := Plane_IntersectsSeg P (Seg (tri_a t1) (tri_b t1)) in
      let ab := vadd (tri_a t1) (vmuls (vsub (tri_b t1) (tri_a t1)) k) in
      let '(_, r) := Plane_IntersectsSeg P (Seg (tri_a t1) (tri_c t1)) in
      let ac := vadd (tri_a t1) (vmuls (vsub (tri_c t1) (tri_a t1)) r) in
      [Tri ab (tri_b t1) (tri_c t1); Tri (tri_c t1) ac ab].
  (** Plane.cpp:882-885 [GenerateCircle]. *)
  Definition Plane_GenerateCircle P (circleCenter : vec T) (radius : T) : circle T := Circ (Plane_Project P circleCenter) (pnormal P) radius.
End Plane.
Arguments line_clip T : clear implicits.
