(** LineSegment2D (/repo/src/Geometry/LineSegment2D.cpp), Triangle2D (/repo/src/Geometry/Triangle2D.cpp) and Circle2D
    (/repo/src/Geometry/Circle2D.cpp), scalar build (vec2d = float2).  Functions with output parameters return them after the
    result, in the order of the parameters.  Not modelled: what is under #if 0 in those files, strings, [IsFinite], and
    [Circle2D::IsDegenerate] (finiteness).  [IntervalIntersection] and [LineSegment2DLineSegment2DIntersect] are in
    TriangleModel.v. *)
From Coq Require Import ZArith Bool List.
From Verif Require Import Num ScalarModel Vec3Model Vec2Model GeoTypes MatModel TriangleModel HullModel.
Import ListNotations.

(** LineSegment2D.h: a, b.  Triangle2D.h: a, b, c.  Circle2D.h:32-38: pos, r. *)
Record seg2 (T : Type) := Seg2 { s2a : v2 T; s2b : v2 T }.
Arguments Seg2 {T}. Arguments s2a {T}. Arguments s2b {T}.
Record tri2 (T : Type) := Tri2 { t2a : v2 T; t2b : v2 T; t2c : v2 T }.
Arguments Tri2 {T}. Arguments t2a {T}. Arguments t2b {T}. Arguments t2c {T}.
Record circle2 (T : Type) := Circ2 { c2pos : v2 T; c2r : T }.
Arguments Circ2 {T}. Arguments c2pos {T}. Arguments c2r {T}.

Section Flat2.
  Context {T : Type} `{NT : Num T}.
  Local Open Scope num_scope.
  Implicit Types (s : seg2 T) (t : tri2 T) (p v : v2 T).

  (** float3x4.cpp:1075-1093 [TransformPos(float2)], 1717 [MulPos(float2)]; float2.cpp:762-764 [Mul2D], [MulPos2D]. *)
  Definition TransformPos2 (m : mat34 T) p : v2 T :=
    let l := lin34 m in
    V2 (vx (row0 l) * x2 p + vy (row0 l) * y2 p + vx (trans34 m)) (vx (row1 l) * x2 p + vy (row1 l) * y2 p + vy (trans34 m)).
  Definition Mul2D (m : mat3 T) p : v2 T :=
    V2 (vx (row0 m) * x2 p + vy (row0 m) * y2 p + vz (row0 m) * n0) (vx (row1 m) * x2 p + vy (row1 m) * y2 p + vz (row1 m) * n0).
  Definition MulPos2D34 (m : mat34 T) p : v2 T :=
    let l := lin34 m in
    V2 (vx (row0 l) * x2 p + vy (row0 l) * y2 p + vz (row0 l) * n0 + vx (trans34 m) * n1)
       (vx (row1 l) * x2 p + vy (row1 l) * y2 p + vz (row1 l) * n0 + vy (trans34 m) * n1).
  Definition MulPos2D4 (m : mat4 T) p : v2 T :=
    V2 (w0 (r40 m) * x2 p + w1 (r40 m) * y2 p + w2 (r40 m) * n0 + w3 (r40 m) * n1)
       (w0 (r41 m) * x2 p + w1 (r41 m) * y2 p + w2 (r41 m) * n0 + w3 (r41 m) * n1).

  (** LineSegment2D.cpp:115-118 [RangesOverlap]. *)
  Definition RangesOverlap (start1 end1 start2 end2 : T) : bool := (end1 >=? start2) && (end2 >=? start1).
  (** LineSegment2D.cpp:135-176: [GetPoint], [CenterPoint], [Reverse], [Dir], [ExtremePoint], [Translate]; 184-188
      [Transform(float3x4)], 492-495 [operator *]; 197-205 [Length], [LengthSq]. *)
  Definition Seg2_GetPoint s (d : T) : v2 T := add2 (smul2 (n1 - d) (s2a s)) (smul2 d (s2b s)).
  Definition Seg2_CenterPoint s : v2 T := muls2 (add2 (s2a s) (s2b s)) nhalf.
  Definition Seg2_Reverse s : seg2 T := Seg2 (s2b s) (s2a s).
  Definition Seg2_Dir s : v2 T := Normalized2 (sub2 (s2b s) (s2a s)).
  Definition Seg2_ExtremePoint s (direction : v2 T) : v2 T := if Dot2 direction (sub2 (s2b s) (s2a s)) >=? n0 then s2b s else s2a s.
  Definition Seg2_ExtremePointDist s (direction : v2 T) : v2 T * T := let e := Seg2_ExtremePoint s direction in (e, Dot2 e direction).
  Definition Seg2_Translate s (offset : v2 T) : seg2 T := Seg2 (add2 (s2a s) offset) (add2 (s2b s) offset).
  Definition Seg2_Transform s (m : mat34 T) : seg2 T := Seg2 (TransformPos2 m (s2a s)) (TransformPos2 m (s2b s)).
  Definition Seg2_Length s : T := Distance2 (s2a s) (s2b s).
  Definition Seg2_LengthSq s : T := DistanceSq2 (s2a s) (s2b s).
  (** LineSegment2D.cpp:227-232 [ClosestPoint(point, d)]; 212-225 [Contains], [Equals]. *)
  Definition Seg2_ClosestPoint s p : v2 T * T :=
    let dir := sub2 (s2b s) (s2a s) in
    let d := Clamp01 (Dot2 (sub2 p (s2a s)) dir / LengthSq2 dir) in (add2 (s2a s) (smul2 d dir), d).
  Definition Seg2_Contains s p (distanceThreshold : T) : bool := DistanceSq2 (fst (Seg2_ClosestPoint s p)) p <=? distanceThreshold.
  Definition Seg2_ContainsSeg s (rhs : seg2 T) (distanceThreshold : T) : bool :=
    Seg2_Contains s (s2a rhs) distanceThreshold && Seg2_Contains s (s2b rhs) distanceThreshold.
  Definition Seg2_Equals s (rhs : seg2 T) (e : T) : bool :=
    (Equals2 (s2a s) (s2a rhs) e && Equals2 (s2b s) (s2b rhs) e) || (Equals2 (s2a s) (s2b rhs) e && Equals2 (s2b s) (s2a rhs) e).
  (** LineSegment2D.cpp:273-290 [Line2DClosestPointLineLine]: (d, d2). *)
  Definition Line2DClosestPointLineLine (v0 v10 v2 v32 : v2 T) : T * T :=
    let v02 := sub2 v0 v2 in
    let d0232 := Dot2 v02 v32 in
    let d3210 := Dot2 v32 v10 in
    let d3232 := Dot2 v32 v32 in
    let d0210 := Dot2 v02 v10 in
    let d1010 := Dot2 v10 v10 in
    let denom := d1010 * d3232 - d3210 * d3210 in
    let d := if negb (denom =? n0) then (d0232 * d3210 - d0210 * d3232) / denom else n0 in
    (d, (d0232 + d * d3210) / d3232).
  (** LineSegment2D.cpp:292-371 [ClosestPoint(LineSegment2D, d, d2)]. *)
  Definition Seg2_ClosestPointSeg s (other : seg2 T) : v2 T * T * T :=
    let dir := sub2 (s2b s) (s2a s) in
    let '(d, d2) := Line2DClosestPointLineLine (s2a s) (sub2 (s2b s) (s2a s)) (s2a other) (sub2 (s2b other) (s2a other)) in
    let din := (d >=? n0) && (d <=? n1) in
    let d2in := (d2 >=? n0) && (d2 <=? n1) in
    if din && (d2 >=? n0) && (d2 <=? n1) then (add2 (s2a s) (smul2 d dir), d, d2)
    else if din then
      let '(d2, p) := if d2 <? n0 then (n0, s2a other) else (n1, s2b other) in
      let '(c, d) := Seg2_ClosestPoint s p in (c, d, d2)
    else if d2in then
      let '(d, p) := if d <? n0 then (n0, s2a s) else (n1, s2b s) in
      let '(_, d2) := Seg2_ClosestPoint other p in (p, d, d2)
    else
      let '(p, d) := if d <? n0 then (s2a s, n0) else (s2b s, n1) in
      let '(p2, d2) := if d2 <? n0 then (s2a other, n0) else (s2b other, n1) in
      let '(closestPoint, t) := Seg2_ClosestPoint s p2 in
      let '(closestPoint2, t2) := Seg2_ClosestPoint other p in
      if DistanceSq2 closestPoint p2 <=? DistanceSq2 closestPoint2 p then (closestPoint, t, d2) else (p, d, t2).
  (** LineSegment2D.cpp:373-387, 402-413 [Distance], [DistanceSq]; 459-462 [Intersects]; 479-485 [ProjectToAxis]. *)
  Definition Seg2_Distance s p : T * T := let '(c, d) := Seg2_ClosestPoint s p in (Distance2 c p, d).
  Definition Seg2_DistanceSq s p : T := let '(c, _) := Seg2_ClosestPoint s p in DistanceSq2 c p.
  Definition Seg2_DistanceSeg s (other : seg2 T) : T * T * T :=
    let '(_, d, d2) := Seg2_ClosestPointSeg s other in (Distance2 (Seg2_GetPoint s d) (Seg2_GetPoint other d2), d, d2).
  Definition Seg2_DistanceSqSeg s (other : seg2 T) : T :=
    let '(_, d, d2) := Seg2_ClosestPointSeg s other in DistanceSq2 (Seg2_GetPoint s d) (Seg2_GetPoint other d2).
  Definition Seg2_IntersectsSeg s (other : seg2 T) (epsilon : T) : bool := fst (fst (Seg2_DistanceSeg s other)) <=? epsilon.
  Definition Seg2_ProjectToAxis s (direction : v2 T) : T * T :=
    let outMin := Dot2 direction (s2a s) in let outMax := Dot2 direction (s2b s) in
    if outMax <? outMin then (outMax, outMin) else (outMin, outMax).

  (** Triangle2D.cpp:55-81 [Translate], [Transform]. *)
  Definition Tri2_Translate t (offset : v2 T) : tri2 T := Tri2 (add2 (t2a t) offset) (add2 (t2b t) offset) (add2 (t2c t) offset).
  Definition Tri2_Transform3 t (m : mat3 T) : tri2 T := Tri2 (Mul2D m (t2a t)) (Mul2D m (t2b t)) (Mul2D m (t2c t)).
  Definition Tri2_Transform34 t (m : mat34 T) : tri2 T := Tri2 (MulPos2D34 m (t2a t)) (MulPos2D34 m (t2b t)) (MulPos2D34 m (t2c t)).
  Definition Tri2_Transform4 t (m : mat4 T) : tri2 T := Tri2 (MulPos2D4 m (t2a t)) (MulPos2D4 m (t2b t)) (MulPos2D4 m (t2c t)).
  (** Triangle2D.cpp:84-87 [TriArea2D] (TriangleModel.v), 89-103 [BarycentricUVW]: no division by the area of the triangle; 105-109
      [BarycentricUV], 111-115 [BarycentricInsideTriangle] is Triangle's ([Tri_BarycentricInside]). *)
  Definition Tri2_BarycentricUVW t p : vec T :=
    let nu := TriArea2D (x2 p) (y2 p) (x2 (t2b t)) (y2 (t2b t)) (x2 (t2c t)) (y2 (t2c t)) in
    let nv := TriArea2D (x2 p) (y2 p) (x2 (t2c t)) (y2 (t2c t)) (x2 (t2a t)) (y2 (t2a t)) in
    let u := nu in let v := nv in V3 u v (n1 - u - v).
  Definition Tri2_BarycentricUV t p : v2 T := let uvw := Tri2_BarycentricUVW t p in V2 (vy uvw) (vz uvw).
  (** Triangle2D.cpp:117-138 [Point], 140-143 [Centroid], 150-153 [Perimeter], 155-183 [Edge], [Vertex] (None: NaN). *)
  Definition Tri2_Point t (u v : T) : v2 T :=
    add2 (t2a t) (add2 (muls2 (sub2 (t2b t) (t2a t)) u) (muls2 (sub2 (t2c t) (t2a t)) v)).
  Definition Tri2_Point3 t (u v w : T) : v2 T := add2 (add2 (smul2 u (t2a t)) (smul2 v (t2b t))) (smul2 w (t2c t)).
  Definition Tri2_Centroid t : v2 T := muls2 (add2 (add2 (t2a t) (t2b t)) (t2c t)) (nlit 1%Z 3%positive).
  Definition Tri2_Perimeter t : T := Distance2 (t2a t) (t2b t) + Distance2 (t2b t) (t2c t) + Distance2 (t2c t) (t2a t).
  Definition Tri2_Edge t (i : nat) : option (seg2 T) :=
    match i with
    | 0 => Some (Seg2 (t2a t) (t2b t)) | 1 => Some (Seg2 (t2b t) (t2c t)) | 2 => Some (Seg2 (t2c t) (t2a t)) | _ => None
    end%nat.
  Definition Tri2_Vertex t (i : nat) : option (v2 T) :=
    match i with 0 => Some (t2a t) | 1 => Some (t2b t) | 2 => Some (t2c t) | _ => None end%nat.
  (** Triangle2D.cpp:185-207 [ExtremePoint] (the start value -FLT_MAX is taken as below every projection), 218-224
      [BoundingAABB], 226-229 [Area2D], 241-249 [IsDegenerate]; Triangle2D.h:355 [Equals]. *)
  Definition Tri2_ExtremePoint t (direction : v2 T) : v2 T :=
    let step (best : v2 T * T) pt := let d := Dot2 direction pt in if d >? snd best then (pt, d) else best in
    fst (fold_left step [t2b t; t2c t] (t2a t, Dot2 direction (t2a t))).
  Definition Tri2_ExtremePointDist t (direction : v2 T) : v2 T * T := let e := Tri2_ExtremePoint t direction in (e, Dot2 e direction).
  Definition Tri2_BoundingAABB t : aabb2 T := Box2 (vMin2 (vMin2 (t2a t) (t2b t)) (t2c t)) (vMax2 (vMax2 (t2a t) (t2b t)) (t2c t)).
  Definition Tri2_Area2D (p1 p2 p3 : v2 T) : T := (x2 p1 - x2 p2) * (y2 p2 - y2 p3) - (x2 p2 - x2 p3) * (y2 p1 - y2 p2).
  Definition Tri2_IsDegenerate t (epsilon : T) : bool :=
    Equals2 (t2a t) (t2b t) epsilon || Equals2 (t2a t) (t2c t) epsilon || Equals2 (t2b t) (t2c t) epsilon.
  Definition Tri2_Equals t (rhs : tri2 T) (epsilon : T) : bool :=
    Equals2 (t2a t) (t2a rhs) epsilon && Equals2 (t2b t) (t2b rhs) epsilon && Equals2 (t2c t) (t2c rhs) epsilon.
  (** Triangle2D.cpp:669-678 [ProjectToAxis], 695-701 [UniqueEdgeDirections]. *)
  Definition Tri2_ProjectToAxis t (axis : v2 T) : T * T :=
    let d := Dot2 axis (t2a t) in
    let tb := Dot2 axis (t2b t) in
    let '(dMin, dMax) := (Min tb d, Max tb d) in
    let tc := Dot2 axis (t2c t) in
    (Min tc dMin, Max tc dMax).
  Definition Tri2_UniqueEdgeDirections t : list (v2 T) := [sub2 (t2b t) (t2a t); sub2 (t2c t) (t2a t); sub2 (t2c t) (t2b t)].
  (** Triangle2D.cpp:704-760 [ClosestPoint(point)]; 282-290 [Distance], [DistanceSq]. *)
  Definition Tri2_ClosestPoint t p : v2 T :=
    let (a, b, c) := t in
    let ab := sub2 b a in
    let ac := sub2 c a in
    let ap := sub2 p a in
    let d1 := Dot2 ab ap in
    let d2 := Dot2 ac ap in
    if (d1 <=? n0) && (d2 <=? n0) then a
    else
    let bp := sub2 p b in
    let d3 := Dot2 ab bp in
    let d4 := Dot2 ac bp in
    if (d3 >=? n0) && (d4 <=? d3) then b
    else
    let vc := d1 * d4 - d3 * d2 in
    if (vc <=? n0) && (d1 >=? n0) && (d3 <=? n0) then
      let v := d1 / (d1 - d3) in add2 a (smul2 v ab)
    else
    let cp := sub2 p c in
    let d5 := Dot2 ab cp in
    let d6 := Dot2 ac cp in
    if (d6 >=? n0) && (d5 <=? d6) then c
    else
    let vb := d5 * d2 - d1 * d6 in
    if (vb <=? n0) && (d2 >=? n0) && (d6 <=? n0) then
      let w := d2 / (d2 - d6) in add2 a (smul2 w ac)
    else
    let va := d3 * d6 - d5 * d4 in
    if (va <=? n0) && (d4 - d3 >=? n0) && (d5 - d6 >=? n0) then
      let w := (d4 - d3) / (d4 - d3 + d5 - d6) in add2 b (smul2 w (sub2 c b))
    else
    let denom := n1 / (va + vb + vc) in
    let v := vb * denom in
    let w := vc * denom in
    add2 (add2 a (muls2 ab v)) (muls2 ac w).
  Definition Tri2_Distance t p : T := Distance2 (Tri2_ClosestPoint t p) p.
  Definition Tri2_DistanceSq t p : T := DistanceSq2 (Tri2_ClosestPoint t p) p.
  (** Triangle2D.cpp:1627-1651 [RandomPointInside] from the two numbers rng.Float(1e-3, 1 - 1e-3); 1658-1672 [RandomPointOnEdge] from the
      number rng.Float(0, perimeter); 1653-1656 [RandomVertex] is [Vertex] of rng.Int(0, 2). *)
  Definition Tri2_RandomPointInside t (s0 t0 : T) : v2 T :=
    let '(s1, t1) := if s0 + t0 >=? n1 then (n1 - s0, n1 - t0) else (s0, t0) in Tri2_Point t s1 t1.
  Definition Tri2_RandomPointOnEdge t (r : T) : v2 T :=
    let (a, b, c) := t in
    let ab := Distance2 a b in let bc := Distance2 b c in let ca := Distance2 c a in
    if r <? ab then add2 a (divs2 (muls2 (sub2 b a) r) ab)
    else let r := r - ab in
    if r <? bc then add2 b (divs2 (muls2 (sub2 c b) r) bc)
    else let r := r - bc in
    add2 c (divs2 (muls2 (sub2 a c) r) ca).

  (** Circle2D.cpp:182-200 [Contains], [Distance], [SignedDistance]. *)
  Definition Circle2D_Contains (c : circle2 T) p : bool := DistanceSq2 (c2pos c) p <=? c2r c * c2r c.
  Definition Circle2D_ContainsEps (c : circle2 T) p (epsilon : T) : bool := DistanceSq2 (c2pos c) p <=? c2r c * c2r c + epsilon.
  Definition Circle2D_Distance (c : circle2 T) p : T := Max n0 (Distance2 (c2pos c) p - c2r c).
  Definition Circle2D_SignedDistance (c : circle2 T) p : T := Distance2 (c2pos c) p - c2r c.
  (** Circle2D.cpp:33-57 [MakeCircleSq]: the radius member holds the squared radius; the points are 0, ab, ac. *)
  Definition MakeCircleSq (AB AC : T) (ab ac : v2 T) : circle2 T :=
    let AB_AC := Dot2 ab ac in
    let denom := AB * AC - AB_AC * AB_AC in
    let quarter := nlit 1%Z 4%positive in
    if Abs denom <? nlit 1%Z 100000%positive then
      if AB_AC >? n0 then (if AB >? AC then Circ2 (muls2 ab nhalf) (AB * quarter) else Circ2 (muls2 ac nhalf) (AC * quarter))
      else Circ2 (muls2 (add2 ab ac) nhalf) ((AB + AC - n2 * AB_AC) * quarter)
    else
      let denom := nhalf / denom in
      let s := (AC * AB - AB_AC * AC) * denom in
      if s <? n0 then Circ2 (muls2 ac nhalf) (AC * quarter)
      else
        let t := (AC * AB - AB_AC * AB) * denom in
        if t <? n0 then Circ2 (muls2 ab nhalf) (AB * quarter)
        else if s + t >? n1 then Circ2 (muls2 (add2 ab ac) nhalf) ((AB + AC - n2 * AB_AC) * quarter)
        else let center := add2 (smul2 s ab) (smul2 t ac) in Circ2 center (LengthSq2 center).
  (** Circle2D.cpp:62-132 [SmallestCircleSqEnclosing4Points]: the circle (relative to a, squared radius) and redundantIndex. *)
  Definition SmallestCircleSqEnclosing4Points (a b c d : v2 T) : circle2 T * nat :=
    let ab := sub2 b a in
    let ac := sub2 c a in
    let ad := sub2 d a in
    let AB := Dot2 ab ab in
    let AC := Dot2 ac ac in
    let circle0 := MakeCircleSq AB AC ab ac in
    let sqd0 := LengthSq2 (sub2 (c2pos circle0) ad) in
    if sqd0 <=? c2r circle0 then (circle0, 2%nat)
    else
    let AD := Dot2 ad ad in
    let circle1 := MakeCircleSq AB AD ab ad in
    let sqd1 := LengthSq2 (sub2 (c2pos circle1) ac) in
    if sqd1 <=? c2r circle1 then (circle1, 1%nat)
    else
    let circle2 := MakeCircleSq AC AD ac ad in
    let sqd2 := LengthSq2 (sub2 (c2pos circle2) ab) in
    if sqd2 <=? c2r circle2 then (circle2, 0%nat)
    else
    let e0 := nsqrt sqd0 - nsqrt (c2r circle0) in
    let e1 := nsqrt sqd1 - nsqrt (c2r circle1) in
    let e2 := nsqrt sqd2 - nsqrt (c2r circle2) in
    let '(red, ci) := if (e0 <=? e1) && (e0 <=? e2) then (2%nat, circle0) else if e1 <=? e2 then (1%nat, circle1) else (0%nat, circle2) in
    let pos := c2pos ci in
    (Circ2 pos (Max (Max (Max (LengthSq2 pos) (DistanceSq2 pos ab)) (DistanceSq2 pos ac)) (DistanceSq2 pos ad)), red).
  (** Circle2D.cpp:135-170 [OptimalEnclosingCircle(a, b, c)]. *)
  Definition OptimalEnclosingCircle3 (a b c : v2 T) : circle2 T :=
    let ab := sub2 b a in
    let ac := sub2 c a in
    let AB := Dot2 ab ab in
    let AC := Dot2 ac ac in
    let AB_AC := Dot2 ab ac in
    let denom := AB * AC - AB_AC * AB_AC in
    let pos :=
      if Abs denom <? nlit 1%Z 100000%positive then
        muls2 (if AB_AC >? n0 then add2 a (if AB >? AC then b else c) else add2 b c) nhalf
      else
        let denom := nhalf / denom in
        let s := (AC * AB - AB_AC * AC) * denom in
        if s <? n0 then muls2 (add2 a c) nhalf
        else
          let t := (AC * AB - AB_AC * AB) * denom in
          if t <? n0 then muls2 (add2 a b) nhalf
          else if s + t >? n1 then muls2 (add2 b c) nhalf
          else add2 (add2 a (smul2 s ab)) (smul2 t ac) in
    Circ2 pos (nsqrt (Max (Max (DistanceSq2 pos a) (DistanceSq2 pos b)) (DistanceSq2 pos c)) + nlit 1%Z 100000%positive).
  (** Circle2D.cpp:202-218, the special cases of [OptimalEnclosingCircle(pointArray, numPoints)] for one to three points. *)
  Definition OptimalEnclosingCircle2 (a b : v2 T) : circle2 T :=
    let center := muls2 (add2 a b) nhalf in
    Circ2 center (nsqrt (Max (DistanceSq2 center a) (DistanceSq2 center b)) + nlit 1%Z 100000%positive).
  (** Circle2D.cpp:202-269 [OptimalEnclosingCircle(pointArray, numPoints)].  The array [pts] is a function from the index; every index read below
      is within the array of numPoints >= 4 entries.  [Swap] exchanges two entries. *)
  Definition arrSwap (f : nat -> v2 T) (i j : nat) : nat -> v2 T :=
    fun k => if Nat.eqb k i then f j else if Nat.eqb k j then f i else f k.
  (** 224-230: move entries of extreme coordinates to the first four places. *)
  Definition extentsStep (f : nat -> v2 T) (i : nat) : nat -> v2 T :=
    let f := if x2 (f 0%nat) <? x2 (f i) then arrSwap f 0 i else f in
    let f := if x2 (f 1%nat) >? x2 (f i) then arrSwap f 1 i else f in
    let f := if y2 (f 2%nat) <? y2 (f i) then arrSwap f 2 i else f in
    if y2 (f 3%nat) >? y2 (f i) then arrSwap f 3 i else f.
  Definition extentsFirst (f : nat -> v2 T) (count : nat) : nat -> v2 T := fold_left extentsStep (seq 0 count) f.
  (** 237-266: the loop over i, with a bound on the number of iterations; None: not finished within it. *)
  Fixpoint enclosingLoop (fuel : nat) (f : nat -> v2 T) (count i : nat) (minCircle : circle2 T) : option (circle2 T) :=
    match fuel with
    | O => None
    | S n =>
      if Nat.leb count i then Some minCircle
      else if LengthSq2 (sub2 (f i) (c2pos minCircle)) <=? c2r minCircle * c2r minCircle then enclosingLoop n f count (i + 1) minCircle
      else
        let '(c, redundantIndex) := SmallestCircleSqEnclosing4Points (f i) (f 0%nat) (f 1%nat) (f 2%nat) in
        let c := Circ2 (add2 (c2pos c) (f i)) (nsqrt (c2r c) + nlit 1%Z 1000%positive) in
        enclosingLoop n (arrSwap f i redundantIndex) count 3 c
    end.
  (** 204-209, 219-269: from four points on.  float2_ConvexHullInPlace (HullModel.v) leaves the hull in the first entries and the sorted input in the
      others (float2.inl:83, 127-140: it writes the first entries only; an entry dropped again at 139 stays behind the hull in the code, where the model has
      the sorted input). *)
  Definition OptimalEnclosingCircleArray (fuel : nat) (pts : list (v2 T)) : option (circle2 T) :=
    match pts with
    | [] => None
    | [a] => Some (Circ2 a n0)
    | [a; b] => Some (OptimalEnclosingCircle2 a b)
    | [a; b; c] => Some (OptimalEnclosingCircle3 a b c)
    | _ =>
      let hull := ConvexHullInPlace pts in
      let count := length hull in
      let arr := hull ++ skipn count (lexSort pts) in
      let f := extentsFirst (fun k => nth k arr (V2 n0 n0)) count in
      enclosingLoop fuel f count 3 (OptimalEnclosingCircle3 (f 0%nat) (f 1%nat) (f 2%nat))
    end.
  (** Circle2D.cpp:272-292 [RandomPointInside] from the numbers lcg.Float(-r, r) drawn in order, at most 1000 pairs. *)
  Fixpoint Circle2D_RandomPointInside (tries : nat) (c : circle2 T) (draws : list (T * T)) : v2 T :=
    match tries, draws with
    | S n, (a, b) :: rest =>
      if LengthSq2 (V2 a b) <=? c2r c * c2r c then add2 (c2pos c) (V2 a b) else Circle2D_RandomPointInside n c rest
    | _, _ => c2pos c
    end.
End Flat2.
