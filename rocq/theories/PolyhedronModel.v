(** Polyhedron (/repo/src/Geometry/Polyhedron.cpp): the part that involves vertex positions, scalar build.

    A polyhedron is its vertex array and its face array (index lists, PolyTopoModel).  [None] stands for an uninitialised or NaN
    result.  [Vertex] reads of indices outside the array are undefined in the code; here they give the origin, and every theorem
    assumes valid indices.  [PolyFaceNormal] accumulates in double precision in the code; here in the number type of the
    model.  Not modelled: [Contains(vec)] and its overloads for other shapes, [FaceContains], [FaceContainmentDistance2D],
    [ClosestPoint], [Intersects] of general polyhedra, [ConvexHull], [MergeAdjacentPlanarFaces], strings. *)
From Coq Require Import ZArith Bool List.
From Verif Require Import Num ScalarModel Vec3Model Vec2Model GeoTypes MatModel AabbModel LineModel RotModel PlaneModel TriangleModel PolygonModel PolyTopoModel.
Import ListNotations.

(** Polyhedron.h:41-82: the members v and f. *)
Record polyhedron (T : Type) := Hed { hv : list (vec T); hf : list face }.
Arguments Hed {T}. Arguments hv {T}. Arguments hf {T}.

Section Polyhedron.
  Context {T : Type} `{NT : Num T}.
  Local Open Scope num_scope.
  Implicit Types (P : polyhedron T) (f : face) (p v direction : vec T).

  (** Polyhedron.h:109 / Polyhedron.cpp:127-133 [Vertex], 186-195 [FacePolygon]. *)
  Definition Hed_Vertex P (i : Z) : vec T := nth (Z.to_nat i) (hv P) (V3 n0 n0 n0).
  Definition Hed_FacePolygon P f : list (vec T) := map (Hed_Vertex P) f.
  (** Polyhedron.cpp:197-208 [FacePlane]. *)
  Definition Hed_FacePlane P f : option (plane T) :=
    match Hed_FacePolygon P f with
    | a :: b :: c :: _ => Some (Plane_Set3 a b c)
    | [a; b] => Some (Plane_FromLine (Ln a (Normalized (vsub b a))) (Perpendicular (vsub a b) (V3 n0 n1 n0) (V3 n0 n0 n1)))
    | [a] => Some (Plane_Set a (V3 n0 n1 n0))
    | [] => None
    end.
  (** Polyhedron.cpp:210-309 [PolyFaceNormal], 311-315 [FaceNormal]: three vertices, more (Newell), two, one. *)
  Fixpoint newell (acc a : vec T) (vs : list (vec T)) : vec T :=
    match vs with
    | [] => acc
    | b :: rest => newell (V3 (vx acc + (vy a - vy b) * (vz a + vz b)) (vy acc + (vz a - vz b) * (vx a + vx b)) (vz acc + (vx a - vx b) * (vy a + vy b))) b rest
    end.
  (** float4d.h:131-150 [Normalize]: no test for short vectors (the zero vector gives NaN in the code). *)
  Definition Normalize4d (v : vec T) : vec T := vmuls v (n1 / Length v).
  Definition Hed_FaceNormal P f : option (vec T) :=
    match Hed_FacePolygon P f with
    | [] => None
    | [_] => Some (V3 n0 n1 n0)
    | [a; b] => Some (Normalized (Cross (vsub b a) (vsub (Perpendicular (vsub a b) (V3 n0 n1 n0) (V3 n0 n0 n1)) a)))
    | [a; b; c] => Some (Normalize4d (Cross (vsub b a) (vsub c a)))
    | (a :: _) as vs => Some (Normalize4d (newell (V3 n0 n0 n0) (last vs a) vs))
    end.
  (** Polyhedron.cpp:317-331 [ExtremeVertex] (in the model any first vertex beats -FLT_MAX), 333-343 [ExtremePoint], 483-490 [ProjectToAxis]. *)
  Fixpoint extremeLoop direction (vs : list (vec T)) (i best : Z) (bestD : T) : Z * T :=
    match vs with
    | [] => (best, bestD)
    | v :: rest => let d := Dot direction v in if d >? bestD then extremeLoop direction rest (i + 1)%Z i d else extremeLoop direction rest (i + 1)%Z best bestD
    end.
  Definition Hed_ExtremeVertex P direction : Z :=
    match hv P with [] => (-1)%Z | v :: rest => fst (extremeLoop direction rest 1 0 (Dot direction v)) end.
  Definition Hed_ExtremePoint P direction : vec T * T := let p := Hed_Vertex P (Hed_ExtremeVertex P direction) in (p, Dot p direction).
  Definition Hed_ProjectToAxis P direction : T * T :=
    (Dot (fst (Hed_ExtremePoint P (vneg direction))) direction, Dot (fst (Hed_ExtremePoint P direction)) direction).
  (** Polyhedron.cpp:492-499 [ApproximateConvexCentroid], 501-538 [ConvexCentroid]. *)
  Definition Hed_ApproximateConvexCentroid P : vec T := vdivs (fold_left vadd (hv P) (V3 n0 n0 n0)) (nlit (Z.of_nat (length (hv P))) 1).
  Fixpoint centroidStrip (c0 : vec T) (vs : list (vec T)) (acc : vec T * T) : vec T * T :=
    match vs with
    | a :: ((b :: c :: _) as rest) =>
        let center := vmuls (vadd (vadd (vadd a b) c) c0) (nlit 1 4) in
        let volume := Abs (Dot (vsub a c0) (Cross (vsub b c0) (vsub c c0))) in
        centroidStrip c0 rest (vadd (fst acc) (smulv volume center), snd acc + volume)
    | _ => acc
    end.
  Definition Hed_ConvexCentroid P : option (vec T) :=
    match hv P with
    | [] => None
    | [a] => Some a
    | [a; b] => Some (vdivs (vadd a b) (nlit 2 1))
    | [a; b; c] => Some (vdivs (vadd (vadd a b) c) (nlit 3 1))
    | _ => let c0 := Hed_ApproximateConvexCentroid P in
           let acc := fold_left (fun acc f => centroidStrip c0 (Hed_FacePolygon P f) acc) (hf P) (V3 n0 n0 n0, n0) in
           Some (vdivs (fst acc) (snd acc))
    end.
  (** Polyhedron.cpp:540-550 [SurfaceArea], 553-564 [Volume], 566-573 [MinimalEnclosingAABB]. *)
  Definition big f : bool := Nat.leb 3 (length f).
  Definition Hed_SurfaceArea P : T := fold_left (fun area f => if big f then area + Poly_Area (Hed_FacePolygon P f) else area) (hf P) n0.
  Definition Hed_Volume P : option T :=
    option_map (fun volume => Abs volume / nlit 3 1)
      (fold_left (fun acc f =>
        if big f then
          match acc, Poly_NormalCCW (Hed_FacePolygon P f) with
          | Some volume, Some n => Some (volume + Dot (Hed_Vertex P (nth 0 f 0%Z)) n * Poly_Area (Hed_FacePolygon P f))
          | _, _ => None
          end
        else acc) (hf P) (Some n0)).
  Definition Hed_MinimalEnclosingAABB P : option (aabb T) := Poly_MinimalEnclosingAABB (hv P).
  (** Polyhedron.cpp:653-693 [IsConvex]; the faces without vertices are skipped. *)
  Definition Hed_IsConvex P : bool :=
    forallb (fun f => match f, Hed_FaceNormal P f with
                      | i :: _, Some n => forallb (fun v => negb (Dot n (vsub v (Hed_Vertex P i)) >? nlit 1 100)) (hv P)
                      | _, _ => true
                      end) (hf P).
  (** Polyhedron.cpp:700-720 [FacesAreNondegeneratePlanar]. *)
  Definition Hed_FacesAreNondegeneratePlanar P (epsilon : T) : bool :=
    forallb (fun f => big f && (Poly_Area (Hed_FacePolygon P f) >? n0)
                      && (if Nat.leb 4 (length f) then match Hed_FacePlane P f with Some pl => forallb (fun p => negb (Plane_Distance pl p >? epsilon)) (Hed_FacePolygon P f) | None => false end else true)) (hf P).
  (** Polyhedron.cpp:722-736 [NearestVertex]; +inf is above every squared distance. *)
  Fixpoint nearestLoop (point : vec T) (vs : list (vec T)) (i best : Z) (bestD : T) : Z :=
    match vs with
    | [] => best
    | v :: rest => let d := DistanceSq point v in if d <? bestD then nearestLoop point rest (i + 1)%Z i d else nearestLoop point rest (i + 1)%Z best bestD
    end.
  Definition Hed_NearestVertex P (point : vec T) : Z := match hv P with [] => (-1)%Z | v :: rest => nearestLoop point rest 1 0 (DistanceSq point v) end.
  (** Polyhedron.cpp:960-978 [ContainsConvex] of a point, a segment, a triangle (the default epsilon is 1e-4, Polyhedron.h:340). *)
  Definition Hed_ContainsConvex P (point : vec T) (epsilon : T) : bool :=
    forallb (fun f => match Hed_FacePlane P f with Some pl => negb (Plane_SignedDistance pl point >? epsilon) | None => true end) (hf P).
  Definition Hed_ContainsConvexSeg P (s : segment T) : bool := Hed_ContainsConvex P (seg_a s) (nlit 1 10000) && Hed_ContainsConvex P (seg_b s) (nlit 1 10000).
  Definition Hed_ContainsConvexTri P (t : triangle T) : bool :=
    Hed_ContainsConvex P (tri_a t) (nlit 1 10000) && Hed_ContainsConvex P (tri_b t) (nlit 1 10000) && Hed_ContainsConvex P (tri_c t) (nlit 1 10000).
  (** Polyhedron.cpp:980-998 [ClosestPointConvex]; every squared distance is taken to be below FLT_MAX. *)
  Definition Hed_ClosestPointConvex P (point : vec T) : option (vec T) :=
    if Hed_ContainsConvex P point (nlit 1 10000) then Some point
    else fold_left (fun best f => match Poly_ClosestPoint (Hed_FacePolygon P f) point with
                                  | None => best
                                  | Some q => match best with
                                              | None => Some q
                                              | Some b => if DistanceSq q point <? DistanceSq b point then Some q else best
                                              end
                                  end) (hf P) None.
  (** Polyhedron.cpp:1064-1107 [ClipLineSegmentToConvexPolyhedron]: the clipped interval, or [None] where the code returns false. *)
  Fixpoint clipFaces P (ptA dir : vec T) (fs : list face) (tFirst tLast : T) : option (T * T) :=
    match fs with
    | [] => Some (tFirst, tLast)
    | f :: rest =>
        match Hed_FacePlane P f with
        | None => None
        | Some p =>
            let denom := Dot (pnormal p) dir in
            let dist := pd p - Dot (pnormal p) ptA in
            if Abs denom <? nlit 1 100000 then (if dist <? n0 then None else clipFaces P ptA dir rest tFirst tLast)
            else
              let t := dist / denom in
              let tFirst := if denom <? n0 then Max t tFirst else tFirst in
              let tLast := if denom <? n0 then tLast else Min t tLast in
              if tFirst >? tLast then None else clipFaces P ptA dir rest tFirst tLast
        end
    end.
  (** FLT_MAX. *)
  Definition fltMax : T := nlit 340282346638528859811704183484516925440 1.
  (** Polyhedron.cpp:1275-1294 [IntersectsConvex]. *)
  Definition is_some {A : Type} (o : option A) : bool := match o with Some _ => true | None => false end.
  Definition Hed_IntersectsConvexLine P (l : line T) : bool := is_some (clipFaces P (lpos l) (ldir l) (hf P) (- fltMax) fltMax).
  Definition Hed_IntersectsConvexRay P (r : ray T) : bool := is_some (clipFaces P (rpos r) (rdir r) (hf P) n0 fltMax).
  Definition Hed_IntersectsConvexSeg P (s : segment T) : bool := is_some (clipFaces P (seg_a s) (vsub (seg_b s) (seg_a s)) (hf P) n0 n1).
  (** Polyhedron.cpp:1464-1521 [MergeConvex]. *)
  Definition Hed_MergeConvex P (point : vec T) : polyhedron T :=
    let keep f := match Hed_FacePlane P f with Some pl => Plane_SignedDistance pl point <=? n0 | None => true end in
    let '(fs, added) := MergeFaces keep (length (hv P)) (hf P) in
    Hed (if added then hv P ++ [point] else hv P) fs.
  (** Polyhedron.cpp:1523-1551 [Translate], [Transform]. *)
  Definition Hed_Translate P (offset : vec T) : polyhedron T := Hed (map (fun v => vadd v offset) (hv P)) (hf P).
  Definition Hed_Transform3 P (m : mat3 T) : polyhedron T := Hed (map (mulv m) (hv P)) (hf P).
  Definition Hed_Transform34 P (m : mat34 T) : polyhedron T := Hed (map (mulpos34 m) (hv P)) (hf P).
  (** Polyhedron.cpp:1553-1563 [OrientNormalsOutsideConvex] for a polyhedron with vertices. *)
  Definition Hed_OrientNormalsOutsideConvex P : polyhedron T :=
    match hv P with
    | [] => P
    | v0 :: rest =>
        let center := vdivs (fold_left vadd rest v0) (nlit (Z.of_nat (length (hv P))) 1) in
        Hed (hv P) (map (fun f => match Hed_FacePlane P f with Some pl => if Plane_SignedDistance pl center >? n0 then FlipFace f else f | None => f end) (hf P))
    end.
  (** Polyhedron.cpp:345-406 [ExtremeVertexConvex].  [scan] walks the remaining neighbours of the current vertex; [visited] are
      the vertices carrying the flood fill colour.  Each move or recursive call visits a new vertex, so [fuel] = number of
      vertices + 1 is enough. *)
  Fixpoint climb (fuel : nat) P (adjacency : list (list Z)) direction (visited : list Z) (cur : Z) : Z * T * list Z :=
    match fuel with
    | O => (cur, Dot direction (Hed_Vertex P cur), visited)
    | S fuel =>
        let curD := Dot direction (Hed_Vertex P cur) in
        let visited := cur :: visited in
        let scan := fix scan (neighbors : list Z) (secondBest : Z) (secondBestD : T) : Z + Z :=
          match neighbors with
          | [] => inr secondBest
          | n :: rest =>
              if existsb (Z.eqb n) visited then scan rest secondBest secondBestD
              else
                let d := Dot direction (Hed_Vertex P n) in
                if d >? curD then inl n
                else if d >? secondBestD then scan rest n d
                else scan rest secondBest secondBestD
          end in
        match scan (nth (Z.to_nat cur) adjacency []) (-1)%Z (curD - nlit 1 1000) with
        | inl n => climb fuel P adjacency direction visited n
        | inr secondBest =>
            if (negb (secondBest =? -1)%Z && negb (existsb (Z.eqb secondBest) visited))%bool then
              let '(secondTry, secondMostExtreme, visited') := climb fuel P adjacency direction visited secondBest in
              if secondMostExtreme >? curD then (secondTry, secondMostExtreme, visited') else (cur, curD, visited')
            else (cur, curD, visited)
        end
    end.
  Definition Hed_ExtremeVertexConvex P (adjacency : list (list Z)) direction (visited : list Z) (startingVertex : Z) : Z * T * list Z :=
    climb (S (length (hv P))) P adjacency direction visited startingVertex.
End Polyhedron.
