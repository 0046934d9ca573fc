(** Line, Ray and LineSegment (/repo/src/Geometry/Line.cpp, Ray.cpp, LineSegment.cpp), scalar build.

    Functions with output parameters return them after the result, in the order of the parameters: [ClosestPoint(x, d, d2)]
    is [(point, d, d2)].  Not modelled here: string conversion, the double overloads ([ClosestPointD], [DistanceSqD]: the
    same formulas in double), the transforms by float4x4 (they call the same MulPos/MulDir as float3x4), and the calls that
    only forward to another class. *)
From Coq Require Import ZArith Bool.
From Verif Require Import Num ScalarModel Vec3Model GeoTypes MatModel.

Section Line.
  Context {T : Type} `{NT : Num T}.
  Local Open Scope num_scope.
  Implicit Types (l : line T) (r : ray T) (s : segment T) (p v : vec T).

  (** Line.cpp:97-101, Ray.cpp:65-69, LineSegment.cpp:64-67 [GetPoint]. *)
  Definition Line_GetPoint l (d : T) : vec T := vadd (lpos l) (smulv d (ldir l)).
  Definition Ray_GetPoint r (d : T) : vec T := vadd (rpos r) (smulv d (rdir r)).
  Definition Seg_GetPoint s (d : T) : vec T := vadd (smulv (n1 - d) (seg_a s)) (smulv d (seg_b s)).
  (** LineSegment.cpp:69-94, 126-134. *)
  Definition Seg_CenterPoint s : vec T := vmuls (vadd (seg_a s) (seg_b s)) nhalf.
  Definition Seg_Reverse s : segment T := Seg (seg_b s) (seg_a s).
  Definition Seg_Dir s : vec T := Normalized (vsub (seg_b s) (seg_a s)).
  Definition Seg_ExtremePoint s (direction : vec T) : vec T := if Dot direction (vsub (seg_b s) (seg_a s)) >=? n0 then seg_b s else seg_a s.
  Definition Seg_ExtremePointDist s (direction : vec T) : vec T * T :=
    let e := Seg_ExtremePoint s direction in (e, Dot e direction).
  Definition Seg_Length s : T := Distance (seg_a s) (seg_b s).
  Definition Seg_LengthSq s : T := DistanceSq (seg_a s) (seg_b s).
  (** Line.cpp:81-90, 310-318, 334-337; Ray.cpp:49-58, 337-350; LineSegment.cpp:54-62, 417-425: conversions. *)
  Definition Line_FromSegment s : line T := Ln (seg_a s) (Seg_Dir s).
  Definition Line_FromRay r : line T := Ln (rpos r) (rdir r).
  Definition Ray_FromLine l : ray T := Ry (lpos l) (ldir l).
  Definition Ray_FromSegment s : ray T := Ry (seg_a s) (Seg_Dir s).
  Definition Seg_FromRay r (d : T) : segment T := Seg (rpos r) (Ray_GetPoint r d).
  Definition Seg_FromLine l (d : T) : segment T := Seg (lpos l) (Line_GetPoint l d).
  Definition Ray_ToSegment r (dStart dEnd : T) : segment T := Seg (Ray_GetPoint r dStart) (Ray_GetPoint r dEnd).
  Definition Line_ToSegment l (dStart dEnd : T) : segment T := Seg (Line_GetPoint l dStart) (Line_GetPoint l dEnd).
  (** Line.cpp:103-118, Ray.cpp:71-86, LineSegment.cpp:96-112: translation and transforms. *)
  Definition Line_Translate l v : line T := Ln (vadd (lpos l) v) (ldir l).
  Definition Ray_Translate r v : ray T := Ry (vadd (rpos r) v) (rdir r).
  Definition Seg_Translate s v : segment T := Seg (vadd (seg_a s) v) (vadd (seg_b s) v).
  Definition Line_Transform3 l (m : mat3 T) : line T := Ln (mulv m (lpos l)) (mulv m (ldir l)).
  Definition Ray_Transform3 r (m : mat3 T) : ray T := Ry (mulv m (rpos r)) (mulv m (rdir r)).
  Definition Seg_Transform3 s (m : mat3 T) : segment T := Seg (mulv m (seg_a s)) (mulv m (seg_b s)).
  Definition Line_Transform34 l (m : mat34 T) : line T := Ln (mulpos34 m (lpos l)) (muldir34 m (ldir l)).
  Definition Ray_Transform34 r (m : mat34 T) : ray T := Ry (mulpos34 m (rpos r)) (muldir34 m (rdir r)).
  Definition Seg_Transform34 s (m : mat34 T) : segment T := Seg (mulpos34 m (seg_a s)) (mulpos34 m (seg_b s)).

  (** Line.cpp:56-73 [ClosestPointLineLine]: (d, d2). *)
  Definition ClosestPointLineLine (v0 v10 v2 v32 : vec T) : T * T :=
    let v02 := vsub v0 v2 in
    let d0232 := Dot v02 v32 in
    let d3210 := Dot v32 v10 in
    let d3232 := Dot v32 v32 in
    let d0210 := Dot v02 v10 in
    let d1010 := Dot v10 v10 in
    let denom := d1010 * d3232 - d3210 * d3210 in
    let d := if negb (denom =? n0) then (d0232 * d3210 - d0210 * d3232) / denom else n0 in
    (d, (d0232 + d * d3210) / d3232).

  (** Closest point to a point: Line.cpp:251-255, Ray.cpp:148-152, LineSegment.cpp:163-168. *)
  Definition Line_ClosestPoint l p : vec T * T := let d := Dot (vsub p (lpos l)) (ldir l) in (Line_GetPoint l d, d).
  Definition Ray_ClosestPoint r p : vec T * T := let d := Max n0 (Dot (vsub p (rpos r)) (rdir r)) in (Ray_GetPoint r d, d).
  Definition Seg_ClosestPoint s p : vec T * T :=
    let dir := vsub (seg_b s) (seg_a s) in
    let d := Clamp01 (Dot (vsub p (seg_a s)) dir / LengthSq dir) in (vadd (seg_a s) (smulv d dir), d).

  (** Line.cpp:257-290. *)
  Definition Line_ClosestPointRay l (o : ray T) : vec T * T * T :=
    let '(d, d2) := ClosestPointLineLine (lpos l) (ldir l) (rpos o) (rdir o) in
    if d2 >=? n0 then (Line_GetPoint l d, d, d2)
    else let '(c, d) := Line_ClosestPoint l (rpos o) in (c, d, n0).
  Definition Line_ClosestPointLine l (o : line T) : vec T * T * T :=
    let '(d, d2) := ClosestPointLineLine (lpos l) (ldir l) (lpos o) (ldir o) in (Line_GetPoint l d, d, d2).
  Definition Line_ClosestPointSeg l (o : segment T) : vec T * T * T :=
    let '(d, d2) := ClosestPointLineLine (lpos l) (ldir l) (seg_a o) (vsub (seg_b o) (seg_a o)) in
    if d2 <? n0 then let '(c, d) := Line_ClosestPoint l (seg_a o) in (c, d, n0)
    else if d2 >? n1 then let '(c, d) := Line_ClosestPoint l (seg_b o) in (c, d, n1)
    else (Line_GetPoint l d, d, d2).

  (** Ray.cpp:154-256. *)
  Definition Ray_ClosestPointRay r (o : ray T) : vec T * T * T :=
    let '(d, d2) := ClosestPointLineLine (rpos r) (rdir r) (rpos o) (rdir o) in
    if (d <? n0) && (d2 <? n0) then
      let '(closestPoint, d) := Ray_ClosestPoint r (rpos o) in
      let '(closestPoint2, d2) := Ray_ClosestPoint o (rpos r) in
      if DistanceSq closestPoint (rpos o) <=? DistanceSq closestPoint2 (rpos r) then (closestPoint, d, n0) else (rpos r, n0, d2)
    else if d <? n0 then
      let '(_, d2) := Ray_ClosestPoint o (rpos r) in (rpos r, n0, Max n0 d2)
    else if d2 <? n0 then
      let '(pt, d) := Ray_ClosestPoint r (rpos o) in (pt, Max n0 d, n0)
    else (Ray_GetPoint r d, d, d2).
  Definition Ray_ClosestPointLine r (o : line T) : vec T * T * T :=
    let '(d, d2) := ClosestPointLineLine (rpos r) (rdir r) (lpos o) (ldir o) in
    if d <? n0 then let '(_, d2) := Line_ClosestPoint o (rpos r) in (rpos r, n0, d2)
    else (Ray_GetPoint r d, d, d2).
  Definition Ray_ClosestPointSeg r (o : segment T) : vec T * T * T :=
    let '(d, d2) := ClosestPointLineLine (rpos r) (rdir r) (seg_a o) (vsub (seg_b o) (seg_a o)) in
    if d <? n0 then
      if (d2 >=? n0) && (d2 <=? n1) then
        let '(_, d2) := Seg_ClosestPoint o (rpos r) in (rpos r, n0, d2)
      else
        let '(p, t2) := if d2 <? n0 then (seg_a o, n0) else (seg_b o, n1) in
        let '(closestPoint, d) := Ray_ClosestPoint r p in
        let '(closestPoint2, d2) := Seg_ClosestPoint o (rpos r) in
        if DistanceSq closestPoint p <=? DistanceSq closestPoint2 (rpos r) then (closestPoint, d, t2) else (rpos r, n0, d2)
    else if d2 <? n0 then let '(c, d) := Ray_ClosestPoint r (seg_a o) in (c, d, n0)
    else if d2 >? n1 then let '(c, d) := Ray_ClosestPoint r (seg_b o) in (c, d, n1)
    else (Ray_GetPoint r d, d, d2).

  (** LineSegment.cpp:170-274. *)
  Definition Seg_ClosestPointRay s (o : ray T) : vec T * T * T :=
    let '(_, d2, d) := Ray_ClosestPointSeg o s in (Seg_GetPoint s d, d, d2).
  Definition Seg_ClosestPointLine s (o : line T) : vec T * T * T :=
    let '(d2, d) := ClosestPointLineLine (lpos o) (ldir o) (seg_a s) (vsub (seg_b s) (seg_a s)) in
    if d <? n0 then let '(_, d2) := Line_ClosestPoint o (seg_a s) in (seg_a s, n0, d2)
    else if d >? n1 then let '(_, d2) := Line_ClosestPoint o (seg_b s) in (seg_b s, n1, d2)
    else (Seg_GetPoint s d, d, d2).
  Definition Seg_ClosestPointSeg s (o : segment T) : vec T * T * T :=
    let dir := vsub (seg_b s) (seg_a s) in
    let '(d, d2) := ClosestPointLineLine (seg_a s) (vsub (seg_b s) (seg_a s)) (seg_a o) (vsub (seg_b o) (seg_a o)) in
    let din := (d >=? n0) && (d <=? n1) in
    let d2in := (d2 >=? n0) && (d2 <=? n1) in
    if din && (d2 >=? n0) && (d2 <=? n1) then (vadd (seg_a s) (smulv d dir), d, d2)
    else if din then                                                  (* only d2 is out of bounds *)
      let '(d2, p) := if d2 <? n0 then (n0, seg_a o) else (n1, seg_b o) in
      let '(c, d) := Seg_ClosestPoint s p in (c, d, d2)
    else if d2in then                                                 (* only d is out of bounds *)
      let '(d, p) := if d <? n0 then (n0, seg_a s) else (n1, seg_b s) in
      let '(_, d2) := Seg_ClosestPoint o p in (p, d, d2)
    else
      let '(p, d) := if d <? n0 then (seg_a s, n0) else (seg_b s, n1) in
      let '(p2, d2) := if d2 <? n0 then (seg_a o, n0) else (seg_b o, n1) in
      let '(closestPoint, t) := Seg_ClosestPoint s p2 in
      let '(closestPoint2, t2) := Seg_ClosestPoint o p in
      if DistanceSq closestPoint p2 <=? DistanceSq closestPoint2 p then (closestPoint, t, d2) else (p, d, t2).

  (** Distances: Line.cpp:156-189, Ray.cpp:115-146, LineSegment.cpp:276-324, 335-343. *)
  Definition Line_Distance l p : T * T := let '(c, d) := Line_ClosestPoint l p in (Distance c p, d).
  Definition Line_DistanceRay l (o : ray T) : T * T * T :=
    let '(c, d, d2) := Line_ClosestPointRay l o in (Distance c (Ray_GetPoint o d2), d, d2).
  Definition Line_DistanceLine l (o : line T) : T * T * T :=
    let '(c, d, d2) := Line_ClosestPointLine l o in (Distance c (Line_GetPoint o d2), d, d2).
  Definition Line_DistanceSeg l (o : segment T) : T * T * T :=
    let '(c, d, d2) := Line_ClosestPointSeg l o in (Distance c (Seg_GetPoint o d2), d, d2).
  Definition Line_DistanceSphere l (o : sphere T) : T := Max n0 (fst (Line_Distance l (spos o)) - srad o).
  Definition Line_DistanceCapsule l (o : capsule T) : T := Max n0 (fst (fst (Line_DistanceSeg l (cap_l o))) - cap_r o).
  Definition Ray_Distance r p : T * T := let '(c, d) := Ray_ClosestPoint r p in (Distance c p, d).
  Definition Ray_DistanceRay r (o : ray T) : T * T * T :=
    let '(c, d, d2) := Ray_ClosestPointRay r o in (Distance c (Ray_GetPoint o d2), d, d2).
  Definition Ray_DistanceLine r (o : line T) : T * T * T :=
    let '(c, d, d2) := Ray_ClosestPointLine r o in (Distance c (Line_GetPoint o d2), d, d2).
  Definition Ray_DistanceSeg r (o : segment T) : T * T * T :=
    let '(c, d, d2) := Ray_ClosestPointSeg r o in (Distance c (Seg_GetPoint o d2), d, d2).
  Definition Ray_DistanceSphere r (o : sphere T) : T := Max n0 (fst (Ray_Distance r (spos o)) - srad o).
  Definition Ray_DistanceCapsule r (o : capsule T) : T := Max n0 (fst (fst (Ray_DistanceSeg r (cap_l o))) - cap_r o).
  Definition Seg_Distance s p : T * T := let '(c, d) := Seg_ClosestPoint s p in (Distance c p, d).
  Definition Seg_DistanceSq s p : T := let '(c, _) := Seg_ClosestPoint s p in DistanceSq c p.
  Definition Seg_DistanceRay s (o : ray T) : T * T * T :=
    let '(_, d, d2) := Seg_ClosestPointRay s o in (Distance (Seg_GetPoint s d) (Ray_GetPoint o d2), d, d2).
  (** 306-311: the line's ClosestPoint writes its own parameter into d and the segment's into d2. *)
  Definition Seg_DistanceLine s (o : line T) : T * T * T :=
    let '(closestPoint2, d, d2) := Line_ClosestPointSeg o s in
    (Distance (Seg_GetPoint s d2) closestPoint2, d, d2).
  Definition Seg_DistanceSeg s (o : segment T) : T * T * T :=
    let '(_, d, d2) := Seg_ClosestPointSeg s o in (Distance (Seg_GetPoint s d) (Seg_GetPoint o d2), d, d2).
  Definition Seg_DistanceSqSeg s (o : segment T) : T :=
    let '(_, d, d2) := Seg_ClosestPointSeg s o in DistanceSq (Seg_GetPoint s d) (Seg_GetPoint o d2).
  Definition Seg_DistanceSphere s (o : sphere T) : T := Max n0 (fst (Seg_Distance s (spos o)) - srad o).
  Definition Seg_DistanceCapsule s (o : capsule T) : T := Max n0 (fst (fst (Seg_DistanceSeg s (cap_l o))) - cap_r o).
  (** LineSegment.cpp:392-395. *)
  Definition Seg_IntersectsSeg s (o : segment T) (epsilon : T) : bool := fst (fst (Seg_DistanceSeg s o)) <=? epsilon.

  (** Containment: Line.cpp:132-154, Ray.cpp:100-113, LineSegment.cpp:141-154. *)
  Definition Line_Contains l p (distanceThreshold : T) : bool := DistanceSq (fst (Line_ClosestPoint l p)) p <=? distanceThreshold.
  Definition Line_ContainsRay l r (epsilon : T) : bool := Line_Contains l (rpos r) epsilon && vEquals (ldir l) (rdir r) epsilon.
  Definition Line_ContainsSeg l s (epsilon : T) : bool := Line_Contains l (seg_a s) epsilon && Line_Contains l (seg_b s) epsilon.
  Definition Line_Equals l (o : line T) (epsilon : T) : bool :=
    Line_Contains l (lpos o) epsilon && EqualAbs (Abs (Dot (ldir l) (ldir o))) n1 epsilon.
  Definition Ray_Contains r p (distanceThreshold : T) : bool := DistanceSq (fst (Ray_ClosestPoint r p)) p <=? distanceThreshold.
  Definition Ray_ContainsSeg r s (t : T) : bool := Ray_Contains r (seg_a s) t && Ray_Contains r (seg_b s) t.
  Definition Ray_Equals r (o : ray T) (epsilon : T) : bool := vEquals (rpos r) (rpos o) epsilon && vEquals (rdir r) (rdir o) epsilon.
  Definition Seg_Contains s p (distanceThreshold : T) : bool := DistanceSq (fst (Seg_ClosestPoint s p)) p <=? distanceThreshold.
  Definition Seg_ContainsSeg s (o : segment T) (t : T) : bool := Seg_Contains s (seg_a o) t && Seg_Contains s (seg_b o) t.
  Definition Seg_Equals s (o : segment T) (e : T) : bool :=
    (vEquals (seg_a s) (seg_a o) e && vEquals (seg_b s) (seg_b o) e) || (vEquals (seg_a s) (seg_b o) e && vEquals (seg_b s) (seg_a o) e).

  (** Projections to an axis: Line.cpp:320-332, Ray.cpp:352-362, LineSegment.cpp:427-433; float3.h default epsilonSq 1e-5 of
      IsPerpendicular. *)
  Definition Line_ProjectToAxis l (direction : vec T) : ext T * ext T :=
    if IsPerpendicular (ldir l) direction (nlit 1%Z 100000%positive) then (Fin (Dot direction (lpos l)), Fin (Dot direction (lpos l)))
    else (MInf, PInf).
  Definition Ray_ProjectToAxis r (direction : vec T) : ext T * ext T :=
    let o := Dot direction (rpos r) in
    let d := Dot direction (rdir r) in
    if d >? nlit 1%Z 10000%positive then (Fin o, PInf)
    else if d <? - nlit 10000%Z 1%positive then (MInf, Fin o)
    else (Fin o, Fin o).
  Definition Seg_ProjectToAxis s (direction : vec T) : T * T :=
    let outMin := Dot direction (seg_a s) in let outMax := Dot direction (seg_b s) in
    if outMax <? outMin then (outMax, outMin) else (outMin, outMax).
End Line.
