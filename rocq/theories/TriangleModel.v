(** Triangle (/repo/src/Geometry/Triangle.h, Triangle.cpp) and the two 2D interval helpers of LineSegment2D.cpp it uses; scalar
    build.

    Optional output pointers are modelled as always given, as extra components of the result.  Not modelled: strings,
    [IsFinite], [BitEquals], [ToPolygon], [ToPolyhedron] (see ToHedModel.v), the SSE variant of [Intersects(AABB)], [ClosestPointD] and
    [DistanceSqD] (the text of [ClosestPoint] in doubles; over the reals they are the same function), and the forwarding overloads
    (835-858) to OBB, Polygon, Frustum, Polyhedron, Capsule. *)
From Coq Require Import ZArith Bool List.
From Verif Require Import Num ScalarModel Vec3Model Vec2Model GeoTypes MatModel AabbModel LineModel RotModel PlaneModel.
Import ListNotations.

Section Triangle.
  Context {T : Type} `{NT : Num T}.
  Local Open Scope num_scope.
  Implicit Types (t : triangle T) (p q v : vec T).

  (** Triangle.cpp:57-62 [Translate], 64-67, 69-72, 81-86 [Transform] (74-79, float4x4, is [MulPos] as well). *)
  Definition Tri_Translate t (offset : vec T) : triangle T :=
    Tri (vadd (tri_a t) offset) (vadd (tri_b t) offset) (vadd (tri_c t) offset).
  Definition Tri_Transform3 t (m : mat3 T) : triangle T := Tri (mulv m (tri_a t)) (mulv m (tri_b t)) (mulv m (tri_c t)).
  Definition Tri_Transform34 t (m : mat34 T) : triangle T :=
    Tri (mulpos34 m (tri_a t)) (mulpos34 m (tri_b t)) (mulpos34 m (tri_c t)).
  Definition Tri_TransformQuat t (q : quat T) : triangle T :=
    Tri (mulv (FromQuat q) (tri_a t)) (mulv (FromQuat q) (tri_b t)) (mulv (FromQuat q) (tri_c t)).

  (** Triangle.cpp:89-92 [TriArea2D], 94-131 [BarycentricUVW], 150-154 [BarycentricUV], 156-160 [BarycentricInsideTriangle]
      (EqualAbs with its default 1e-3). *)
  Definition TriArea2D (x1 y1 x2 y2 x3 y3 : T) : T := (x1 - x2) * (y2 - y3) - (x2 - x3) * (y1 - y2).
  Definition Tri_BarycentricUVW t (point : vec T) : vec T :=
    let (a, b, c) := t in
    let m := Cross (vsub b a) (vsub c a) in
    let x := Abs (vx m) in let y := Abs (vy m) in let z := Abs (vz m) in
    let '(nu, nv, ood) :=
      if (x >=? y) && (x >=? z) then
        (TriArea2D (vy point) (vz point) (vy b) (vz b) (vy c) (vz c),
         TriArea2D (vy point) (vz point) (vy c) (vz c) (vy a) (vz a), n1 / vx m)
      else if y >=? z then
        (TriArea2D (vx point) (vz point) (vx b) (vz b) (vx c) (vz c),
         TriArea2D (vx point) (vz point) (vx c) (vz c) (vx a) (vz a), n1 / (- vy m))
      else
        (TriArea2D (vx point) (vy point) (vx b) (vy b) (vx c) (vy c),
         TriArea2D (vx point) (vy point) (vx c) (vy c) (vx a) (vy a), n1 / vz m) in
    let u := nu * ood in
    let v := nv * ood in
    V3 u v (n1 - u - v).
  Definition Tri_BarycentricUV t (point : vec T) : v2 T := let uvw := Tri_BarycentricUVW t point in V2 (vy uvw) (vz uvw).
  Definition Tri_BarycentricInside (uvw : vec T) : bool :=
    (vx uvw >=? n0) && (vy uvw >=? n0) && (vz uvw >=? n0) && EqualAbs (vx uvw + vy uvw + vz uvw) n1 (nlit 1%Z 1000%positive).
  (** Triangle.cpp:162-168, 170-173, 175-183 [Point]. *)
  Definition Tri_Point t (u v : T) : vec T :=
    vadd (tri_a t) (vadd (vmuls (vsub (tri_b t) (tri_a t)) u) (vmuls (vsub (tri_c t) (tri_a t)) v)).
  Definition Tri_Point3 t (u v w : T) : vec T := vadd (vadd (smulv u (tri_a t)) (smulv v (tri_b t))) (smulv w (tri_c t)).
  (** Triangle.cpp:185-188 [Centroid], 190-193 [Area], 195-198 [Perimeter], 200-212 [Edge], 214-226 [Vertex] (None: the NaN results for
      an index out of range). *)
  Definition Tri_Centroid t : vec T := vmuls (vadd (vadd (tri_a t) (tri_b t)) (tri_c t)) (nlit 1%Z 3%positive).
  Definition Tri_UnnormalizedNormalCCW t : vec T := Cross (vsub (tri_b t) (tri_a t)) (vsub (tri_c t) (tri_a t)).
  Definition Tri_UnnormalizedNormalCW t : vec T := Cross (vsub (tri_c t) (tri_a t)) (vsub (tri_b t) (tri_a t)).
  Definition Tri_Area t : T := nhalf * Length (Tri_UnnormalizedNormalCCW t).
  Definition Tri_Perimeter t : T :=
    Distance (tri_a t) (tri_b t) + Distance (tri_b t) (tri_c t) + Distance (tri_c t) (tri_a t).
  Definition Tri_Edge t (i : nat) : option (segment T) :=
    match i with
    | 0 => Some (Seg (tri_a t) (tri_b t)) | 1 => Some (Seg (tri_b t) (tri_c t)) | 2 => Some (Seg (tri_c t) (tri_a t))
    | _ => None
    end%nat.
  Definition Tri_Vertex t (i : nat) : option (vec T) :=
    match i with 0 => Some (tri_a t) | 1 => Some (tri_b t) | 2 => Some (tri_c t) | _ => None end%nat.
  (** Triangle.cpp:228-236 [PlaneCCW], [PlaneCW], 238-246 [NormalCCW], [NormalCW], 248-256 (above) the unnormalized ones. *)
  Definition Tri_PlaneCCW t : plane T := Plane_Set3 (tri_a t) (tri_b t) (tri_c t).
  Definition Tri_PlaneCW t : plane T := Plane_Set3 (tri_a t) (tri_c t) (tri_b t).
  Definition Tri_NormalCCW t : vec T := Normalized (Tri_UnnormalizedNormalCCW t).
  Definition Tri_NormalCW t : vec T := Normalized (Tri_UnnormalizedNormalCW t).
  (** Triangle.cpp:258-273 [ExtremePoint] (the start value -FLT_MAX is taken as below every projection: the first vertex is
      always accepted), 275-280. *)
  Definition Tri_ExtremePoint t (direction : vec T) : vec T :=
    let step (best : vec T * T) pt := let d := Dot direction pt in if d >? snd best then (pt, d) else best in
    fst (fold_left step [tri_b t; tri_c t] (tri_a t, Dot direction (tri_a t))).
  Definition Tri_ExtremePointDist t (direction : vec T) : vec T * T :=
    let e := Tri_ExtremePoint t direction in (e, Dot e direction).
  (** Triangle.cpp:296-302 [BoundingAABB], 304-307 [Area2D], 309-312 [SignedArea], 319-327 [IsDegenerate]. *)
  Definition Tri_BoundingAABB t : aabb T :=
    Box (vMin (vMin (tri_a t) (tri_b t)) (tri_c t)) (vMax (vMax (tri_a t) (tri_b t)) (tri_c t)).
  Definition Tri_Area2D (p1 p2 p3 : v2 T) : T :=
    (x2 p1 - x2 p2) * (y2 p2 - y2 p3) - (x2 p2 - x2 p3) * (y2 p1 - y2 p2).
  Definition Tri_SignedArea (pt a b c : vec T) : T :=
    Dot (Cross (vsub b pt) (vsub c pt)) (Normalized (Cross (vsub b a) (vsub c a))).
  Definition Tri_IsDegenerate t (epsilon : T) : bool :=
    vEquals (tri_a t) (tri_b t) epsilon || vEquals (tri_a t) (tri_c t) epsilon || vEquals (tri_b t) (tri_c t) epsilon.
  (** Triangle.cpp:329-339 [Contains(point)]; the barycentric part on its own is what [Contains(point, FLOAT_INF)] does (no
      d*d compares greater than an infinite or NaN product).  341-350 [Contains(LineSegment)], [Contains(Triangle)]. *)
  Definition Tri_ContainsBary t (point : vec T) : bool :=
    let br := Tri_BarycentricUVW t point in
    let m := - nlit 1%Z 1000%positive in
    (vx br >=? m) && (vy br >=? m) && (vz br >=? m).
  Definition Tri_Contains t (point : vec T) (triangleThicknessSq : T) : bool :=
    let normal := Cross (vsub (tri_b t) (tri_a t)) (vsub (tri_c t) (tri_a t)) in
    let lenSq := LengthSq normal in
    let d := Dot normal (vsub (tri_b t) point) in
    if d * d >? triangleThicknessSq * lenSq then false else Tri_ContainsBary t point.
  Definition Tri_ContainsSeg t (l : segment T) (thickness : T) : bool :=
    Tri_Contains t (seg_a l) thickness && Tri_Contains t (seg_b l) thickness.
  Definition Tri_ContainsTri t (o : triangle T) (thickness : T) : bool :=
    Tri_Contains t (tri_a o) thickness && Tri_Contains t (tri_b o) thickness && Tri_Contains t (tri_c o) thickness.

  (** Triangle.cpp:405-447 [IntersectLineTri]: (t, u, v), or None where it returns FLOAT_INF (a quotient that itself overflows is not
      identified with it). *)
  Definition IntersectLineTri (linePos lineDir v0 v1 v2 : vec T) : option (T * T * T) :=
    let epsilon := nlit 1%Z 10000%positive in
    let vE1 := vsub v1 v0 in
    let vE2 := vsub v2 v0 in
    let vP := Cross lineDir vE2 in
    let det := Dot vE1 vP in
    if Abs det <=? epsilon then None
    else
      let recipDet := n1 / det in
      let vT := vsub linePos v0 in
      let u := Dot vT vP * recipDet in
      if (u <? - epsilon) || (u >? n1 + epsilon) then None
      else
        let vQ := Cross vT vE1 in
        let v := Dot lineDir vQ * recipDet in
        if (v <? - epsilon) || (u + v >? n1 + epsilon) then None
        else Some (Dot vE2 vQ * recipDet, u, v).
  (** Triangle.cpp:450-465, 467-479, 481-493 [Intersects] of a segment, line, ray: the distance and the point, if any. *)
  Definition Tri_IntersectsSeg t (l : segment T) : option (T * vec T) :=
    match IntersectLineTri (seg_a l) (vsub (seg_b l) (seg_a l)) (tri_a t) (tri_b t) (tri_c t) with
    | Some (d, _, _) => if (d >=? n0) && (d <=? n1) then Some (d, Seg_GetPoint l d) else None
    | None => None
    end.
  Definition Tri_IntersectsLine t (l : line T) : option (T * vec T) :=
    match IntersectLineTri (lpos l) (ldir l) (tri_a t) (tri_b t) (tri_c t) with
    | Some (d, _, _) => Some (d, Line_GetPoint l d)
    | None => None
    end.
  Definition Tri_IntersectsRay t (r : ray T) : option (T * vec T) :=
    match IntersectLineTri (rpos r) (rdir r) (tri_a t) (tri_b t) (tri_c t) with
    | Some (d, _, _) => if d >=? n0 then Some (d, Ray_GetPoint r d) else None
    | None => None
    end.

  (** Triangle.cpp:895-951 [ClosestPoint(point)]; 363-366 [Distance], 368-371 [DistanceSq], 378-381 sphere; 502-510
      [Intersects(Sphere)] with the closest point. *)
  Definition Tri_ClosestPoint t p : vec T :=
    let (a, b, c) := t in
    let ab := vsub b a in
    let ac := vsub c a in
    let ap := vsub p a in
    let d1 := Dot ab ap in
    let d2 := Dot ac ap in
    if (d1 <=? n0) && (d2 <=? n0) then a
    else
    let bp := vsub p b in
    let d3 := Dot ab bp in
    let d4 := Dot ac bp in
    if (d3 >=? n0) && (d4 <=? d3) then b
    else
    let vc := d1 * d4 - d3 * d2 in
    if (vc <=? n0) && (d1 >=? n0) && (d3 <=? n0) then
      let v := d1 / (d1 - d3) in vadd a (smulv v ab)
    else
    let cp := vsub p c in
    let d5 := Dot ab cp in
    let d6 := Dot ac cp in
    if (d6 >=? n0) && (d5 <=? d6) then c
    else
    let vb := d5 * d2 - d1 * d6 in
    if (vb <=? n0) && (d2 >=? n0) && (d6 <=? n0) then
      let w := d2 / (d2 - d6) in vadd a (smulv w ac)
    else
    let va := d3 * d6 - d5 * d4 in
    if (va <=? n0) && (d4 - d3 >=? n0) && (d5 - d6 >=? n0) then
      let w := (d4 - d3) / (d4 - d3 + d5 - d6) in vadd b (smulv w (vsub c b))
    else
    let denom := n1 / (va + vb + vc) in
    let v := vb * denom in
    let w := vc * denom in
    vadd (vadd a (vmuls ab v)) (vmuls ac w).
  Definition Tri_Distance t p : T := Distance (Tri_ClosestPoint t p) p.
  Definition Tri_DistanceSq t p : T := DistanceSq (Tri_ClosestPoint t p) p.
  Definition Tri_DistanceSphere t (s : sphere T) : T := Max n0 (Tri_Distance t (spos s) - srad s).
  Definition Tri_IntersectsSphere t (s : sphere T) : bool * vec T :=
    let pt := Tri_ClosestPoint t (spos s) in (DistanceSq pt (spos s) <=? srad s * srad s, pt).

  (** Triangle.cpp:1397-1430, 1432-1465 [ClosestPointToTriangleEdge] for a line, a segment: the point on the edge, its
      barycentric (u,v), and the position on the line or segment. *)
  Definition nearestEdge t (cand : segment T -> vec T * T) (at_ : T -> vec T) : vec T * v2 T * T :=
    let (a, b, c) := t in
    let '(pt1, d1) := cand (Seg a b) in
    let '(pt2, d2) := cand (Seg b c) in
    let '(pt3, d3) := cand (Seg c a) in
    let dist1 := DistanceSq pt1 (at_ d1) in
    let dist2 := DistanceSq pt2 (at_ d2) in
    let dist3 := DistanceSq pt3 (at_ d3) in
    if (dist1 <=? dist2) && (dist1 <=? dist3) then (pt1, Tri_BarycentricUV t pt1, d1)
    else if dist2 <=? dist3 then (pt2, Tri_BarycentricUV t pt2, d2)
    else (pt3, Tri_BarycentricUV t pt3, d3).
  Definition Tri_ClosestPointToEdgeLine t (l : line T) : vec T * v2 T * T :=
    nearestEdge t (fun e => let '(pt, _, d) := Seg_ClosestPointLine e l in (pt, d)) (Line_GetPoint l).
  Definition Tri_ClosestPointToEdgeSeg t (l : segment T) : vec T * v2 T * T :=
    nearestEdge t (fun e => let '(pt, _, d) := Seg_ClosestPointSeg e l in (pt, d)) (Seg_GetPoint l).
  (** Triangle.cpp:1013-1055 [ClosestPoint(LineSegment, otherPt)], 1467-1483 [ClosestPoint(Line, otherPt)]: (the point on the
      triangle, the other point).  383-388 [Distance(Capsule)]. *)
  Definition Tri_ClosestPointSeg t (l : segment T) : vec T * vec T :=
    let hit := match IntersectLineTri (seg_a l) (vsub (seg_b l) (seg_a l)) (tri_a t) (tri_b t) (tri_c t) with
               | Some (d, u, v) => if (d >=? n0) && (d <=? n1) then Some (d, u, v) else None
               | None => None
               end in
    match hit with
    | Some (d, u, v) => (Tri_Point t u v, Seg_GetPoint l d)
    | None =>
      let '(pt1, _, d1) := Tri_ClosestPointToEdgeSeg t l in
      let pt2 := Tri_ClosestPoint t (seg_a l) in
      let pt3 := Tri_ClosestPoint t (seg_b l) in
      let D1 := DistanceSq pt1 (Seg_GetPoint l d1) in
      let D2 := DistanceSq pt2 (seg_a l) in
      let D3 := DistanceSq pt3 (seg_b l) in
      if (D1 <=? D2) && (D1 <=? D3) then (pt1, Seg_GetPoint l d1)
      else if D2 <=? D3 then (pt2, seg_a l)
      else (pt3, seg_b l)
    end.
  Definition Tri_ClosestPointLine t (l : line T) : vec T * vec T :=
    match Tri_IntersectsLine t l with
    | Some (_, intersectionPoint) => (intersectionPoint, intersectionPoint)
    | None => let '(pt1, _, d1) := Tri_ClosestPointToEdgeLine t l in (pt1, Line_GetPoint l d1)
    end.
  Definition Tri_DistanceCapsule t (c : capsule T) : T :=
    let '(thisPt, otherPt) := Tri_ClosestPointSeg t (cap_l c) in Max n0 (Distance thisPt otherPt - cap_r c).

  (** LineSegment2D.cpp:46-74 [IntervalIntersection]: how many intersections, and the two numbers (None: NaN). *)
  Definition IntervalIntersection (u0 u1 v0 v1 : T) : nat * option (T * T) :=
    if (u1 <? v0) || (u0 >? v1) then (0%nat, None)
    else if u1 >? v0 then
      if u0 <? v1 then (2%nat, Some (Max u0 v0, Min u1 v1)) else (1%nat, Some (u0, u0))
    else (1%nat, Some (u1, u1)).
  (** LineSegment2D.cpp:77-113 [LineSegment2DLineSegment2DIntersect]: (return value, (s, t)), None for NaN. *)
  Definition LineSegment2DLineSegment2DIntersect (p0 dir0 p1 dir1 : v2 T) : bool * option (T * T) :=
    let e := sub2 p1 p0 in
    let cross := PerpDot2 dir0 dir1 in
    let sqrCross := cross * cross in
    let sqrLen0 := LengthSq2 dir0 in
    let sqrLen1 := LengthSq2 dir1 in
    let sqrEpsilon := nlit 1%Z 100000000%positive in
    if sqrCross >? sqrEpsilon * sqrLen0 * sqrLen1 then
      let s := PerpDot2 e dir1 / cross in
      let t := PerpDot2 e dir0 / cross in
      ((s >=? n0) && (s <=? n1) && (t >=? n0) && (t <=? n1), Some (s, t))
    else
      let sqrLenE := LengthSq2 e in
      let cross := PerpDot2 e dir0 in
      let sqrCross := cross * cross in
      if sqrCross >? sqrEpsilon * sqrLen0 * sqrLenE then (false, None)
      else
        let s0 := Dot2 dir0 e / sqrLen0 in
        let s1 := s0 + Dot2 dir0 dir1 / sqrLen0 in
        let '(n, st) := IntervalIntersection n0 n1 (Min s0 s1) (Max s0 s1) in
        ((0 <? n)%nat, st).

  (** Triangle.cpp:517-534 [FindIntersectingLineSegments]. *)
  Definition FindIntersectingLineSegments t (da db dc : T) : segment T * segment T :=
    let (a, b, c) := t in
    if da * db >? n0 then (Seg a c, Seg b c)
    else if db * dc >? n0 then (Seg a b, Seg a c)
    else (Seg a b, Seg b c).
  (** Triangle.cpp:540-627 [Intersects(Triangle, outLine)]: (return value, the segment written to outLine if it is written).  The
      nine edge pairs (616-624) are scanned in order; [pt] is computed from [s] alone, without the start of the edge, as in the code. *)
  Definition Tri_IntersectsTri t1 t2 : bool * option (segment T) :=
    let triangleThickness := nlit 1%Z 10000%positive in
    let p1 := Tri_PlaneCCW t1 in
    let p2 := Tri_PlaneCCW t2 in
    if negb (IsZero (Cross (pnormal p1) (pnormal p2))) then
      let t2da := Plane_SignedDistance p1 (tri_a t2) in
      let t2db := Plane_SignedDistance p1 (tri_b t2) in
      let t2dc := Plane_SignedDistance p1 (tri_c t2) in
      let t2min := Min (Min t2da t2db) t2dc in
      let t2max := Max (Max t2da t2db) t2dc in
      if (t2max <? - triangleThickness) || (t2min >? triangleThickness) then (false, None)
      else
      let t1da := Plane_SignedDistance p2 (tri_a t1) in
      let t1db := Plane_SignedDistance p2 (tri_b t1) in
      let t1dc := Plane_SignedDistance p2 (tri_c t1) in
      let t1min := Min (Min t1da t1db) t1dc in
      let t1max := Max (Max t1da t1db) t1dc in
      if (t1max <? - triangleThickness) || (t1min >? triangleThickness) then (false, None)
      else
      match Plane_IntersectsPlane p1 p2 with
      | None => (false, None)
      | Some l =>
        let '(l1a, l1b) := FindIntersectingLineSegments t1 t1da t1db t1dc in
        let '(l2a, l2b) := FindIntersectingLineSegments t2 t2da t2db t2dc in
        let pos s := snd (fst (Line_DistanceSeg l s)) in
        let d1a := pos l1a in let d1b := pos l1b in
        let d2a := pos l2a in let d2b := pos l2b in
        let '(d1a, d1b) := if d1a >? d1b then (d1b, d1a) else (d1a, d1b) in
        let '(d2a, d2b) := if d2a >? d2b then (d2b, d2a) else (d2a, d2b) in
        let rStart := Max d1a d2a in
        let rEnd := Min d1b d2b in
        if rStart <=? rEnd then (true, Some (Seg (Line_GetPoint l rStart) (Line_GetPoint l rEnd))) else (false, None)
      end
    else
      let a := tri_a t1 in
      let tri0Pos := Dot (pnormal p1) a in
      let tri1Pos := Dot (pnormal p1) (tri_a t2) in
      if Abs (tri0Pos - tri1Pos) >? triangleThickness then (false, None)
      else if Tri_ContainsBary t2 a || Tri_ContainsBary t1 (tri_a t2) then (true, None)
      else
        let '(basisU, basisV) := PerpendicularBasis (pnormal p1) in
        let flat q := V2 (Dot basisU (vsub q a)) (Dot basisV (vsub q a)) in
        let a1 := V2 n0 n0 in
        let a2 := flat (tri_b t1) in
        let a3 := flat (tri_c t1) in
        let b1 := flat (tri_a t2) in
        let b2 := flat (tri_b t2) in
        let b3 := flat (tri_c t2) in
        let edges x y z := [(x, sub2 y x); (y, sub2 z y); (z, sub2 x z)] in
        let pairs := flat_map (fun e1 => map (fun e2 => (e1, e2)) (edges b1 b2 b3)) (edges a1 a2 a3) in
        let try (found : bool * option (segment T)) (pr : (v2 T * v2 T) * (v2 T * v2 T)) :=
          if fst found then found
          else
            let '((q0, dir0), (q1, dir1)) := pr in
            match LineSegment2DLineSegment2DIntersect q0 dir0 q1 dir1 with
            | (true, Some (s, _)) =>
              let pt := smul2 s dir0 in
              let pt3d := vadd (vadd a (smulv (x2 pt) basisU)) (smulv (y2 pt) basisV) in
              (true, Some (Seg pt3d pt3d))
            | _ => found
            end in
        fold_left try pairs (false, None).

  (** Triangle.cpp:630-833 [Intersects(AABB)], the scalar branch (714-832).  [crossTest d1 d2 r] is true where the code returns
      false. *)
  Definition crossTest (d1 d2 r : T) : bool := let tc := (d1 + d2) * nhalf in Abs r + Abs (tc - d1) <? Abs tc.
  Definition Tri_IntersectsAABB t (box : aabb T) : bool :=
    let (a, b, c) := t in
    let tMin := vMin a (vMin b c) in
    let tMax := vMax a (vMax b c) in
    if (vx tMin >=? vx (maxPoint box)) || (vx tMax <=? vx (minPoint box))
       || (vy tMin >=? vy (maxPoint box)) || (vy tMax <=? vy (minPoint box))
       || (vz tMin >=? vz (maxPoint box)) || (vz tMax <=? vz (minPoint box)) then false
    else
      let center := vmuls (vadd (minPoint box) (maxPoint box)) nhalf in
      let h := vsub (maxPoint box) center in
      let t0 := vsub b a in let t1 := vsub c a in let t2 := vsub c b in
      let ac := vsub a center in
      let n := Cross t0 t1 in
      let s := Dot n ac in
      let r := Abs (Dot h (vAbs n)) in
      if Abs s >=? r then false
      else
        let at0 := vAbs t0 in let at1 := vAbs t1 in let at2 := vAbs t2 in
        let bc := vsub b center in
        let cc := vsub c center in
        if crossTest (vy t0 * vz ac - vz t0 * vy ac) (vy t0 * vz cc - vz t0 * vy cc) (vy h * vz at0 + vz h * vy at0) then false
        else if crossTest (vy t1 * vz ac - vz t1 * vy ac) (vy t1 * vz bc - vz t1 * vy bc) (vy h * vz at1 + vz h * vy at1) then false
        else if crossTest (vy t2 * vz ac - vz t2 * vy ac) (vy t2 * vz bc - vz t2 * vy bc) (vy h * vz at2 + vz h * vy at2) then false
        else if crossTest (vz t0 * vx ac - vx t0 * vz ac) (vz t0 * vx cc - vx t0 * vz cc) (vx h * vz at0 + vz h * vx at0) then false
        else if crossTest (vz t1 * vx ac - vx t1 * vz ac) (vz t1 * vx bc - vx t1 * vz bc) (vx h * vz at1 + vz h * vx at1) then false
        else if crossTest (vz t2 * vx ac - vx t2 * vz ac) (vz t2 * vx bc - vx t2 * vz bc) (vx h * vz at2 + vz h * vx at2) then false
        else if crossTest (vx t0 * vy ac - vy t0 * vx ac) (vx t0 * vy cc - vy t0 * vx cc) (vy h * vx at0 + vx h * vy at0) then false
        else if crossTest (vx t1 * vy ac - vy t1 * vx ac) (vx t1 * vy bc - vy t1 * vx bc) (vy h * vx at1 + vx h * vy at1) then false
        else if crossTest (vx t2 * vy ac - vy t2 * vx ac) (vx t2 * vy bc - vy t2 * vx bc) (vy h * vx at2 + vx h * vy at2) then false
        else true.

  (** Triangle.cpp:860-869 [ProjectToAxis]; 871-892 [UniqueFaceNormals], [UniqueEdgeDirections]. *)
  Definition Tri_ProjectToAxis t (axis : vec T) : T * T :=
    let dA := Dot axis (tri_a t) in
    let dB := Dot axis (tri_b t) in
    let dC := Dot axis (tri_c t) in
    (Min dC (Min dB dA), Max dC (Max dB dA)).
  Definition Tri_UniqueFaceNormals t : list (vec T) :=
    let n := Cross (vsub (tri_b t) (tri_a t)) (vsub (tri_c t) (tri_a t)) in
    [n; Cross n (vsub (tri_b t) (tri_a t)); Cross n (vsub (tri_c t) (tri_a t)); Cross n (vsub (tri_c t) (tri_b t))].
  Definition Tri_UniqueEdgeDirections t : list (vec T) :=
    [vsub (tri_b t) (tri_a t); vsub (tri_c t) (tri_a t); vsub (tri_c t) (tri_b t)].

  (** Triangle.cpp:1817-1875 [ClosestPoint(Triangle, otherPt)].  None: the triangles were found to intersect without a segment
      being written, so that the centre of an uninitialised LineSegment is returned. *)
  Definition Tri_ClosestPointTri t1 t2 : option (vec T * vec T) :=
    match Tri_IntersectsTri t1 t2 with
    | (true, None) => None
    | (true, Some l) => let cp := Seg_CenterPoint l in Some (cp, cp)
    | (false, _) =>
      let vs t := [tri_a t; tri_b t; tri_c t] in
      let better (best cand : vec T * vec T * T) := if snd cand <? snd best then cand else best in
      let fromOther q := let pt := Tri_ClosestPoint t1 q in (pt, q, DistanceSq pt q) in
      let fromThis q := let pt := Tri_ClosestPoint t2 q in (q, pt, DistanceSq pt q) in
      let es t := [Seg (tri_a t) (tri_b t); Seg (tri_a t) (tri_c t); Seg (tri_b t) (tri_c t)] in
      let fromEdges (e1 e2 : segment T) :=
        let '(dist, d, d2) := Seg_DistanceSeg e1 e2 in (Seg_GetPoint e1 d, Seg_GetPoint e2 d2, dist * dist) in
      let cands := map fromOther [tri_b t2; tri_c t2] ++ map fromThis (vs t1)
                   ++ flat_map (fun e1 => map (fromEdges e1) (es t2)) (es t1) in
      Some (fst (fold_left better cands (fromOther (tri_a t2))))
    end.

  (** Triangle.cpp:1877-1901 [RandomPointInside] from the two numbers rng.Float(1e-3, 1 - 1e-3); 1908-1922 [RandomPointOnEdge]
      from the number rng.Float(0, perimeter); 1903-1906 [RandomVertex] is [Vertex] of rng.Int(0, 2). *)
  Definition Tri_RandomPointInside t (s0 t0 : T) : vec T :=
    let '(s1, t1) := if s0 + t0 >=? n1 then (n1 - s0, n1 - t0) else (s0, t0) in Tri_Point t s1 t1.
  Definition Tri_RandomPointOnEdge t (r : T) : vec T :=
    let (a, b, c) := t in
    let ab := Distance a b in let bc := Distance b c in let ca := Distance c a in
    if r <? ab then vadd a (vdivs (vmuls (vsub b a) r) ab)
    else let r := r - ab in
    if r <? bc then vadd b (vdivs (vmuls (vsub c b) r) bc)
    else let r := r - bc in
    vadd c (vdivs (vmuls (vsub a c) r) ca).
End Triangle.
