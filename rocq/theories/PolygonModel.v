(** Polygon (/repo/src/Geometry/Polygon.cpp), scalar build: the list of its vertices.

    [None] stands for a NaN result, an uninitialised result or an access outside the vertex array.  Not modelled: strings,
    [FastRandomPointInside], [RandomPointOnEdge] (random numbers), [ToPolyhedron] (see ToHedModel.v), [IsFinite], [BitEquals], [Equals],
    [Intersects] with Triangle, Polygon, Polyhedron and Frustum; AABB and OBB are in PolyBoxModel.v.
    [Intersects] with Sphere and Capsule and [ClosestPoint(LineSegment)] are in PolyMeetModel.v. *)
From Coq Require Import ZArith Bool List.
From Verif Require Import Num ScalarModel Vec3Model Vec2Model GeoTypes MatModel AabbModel LineModel RotModel PlaneModel SphereModel TriangleModel.
Import ListNotations.

Section Polygon.
  Context {T : Type} `{NT : Num T}.
  Local Open Scope num_scope.
  Implicit Types (ps : list (vec T)) (p q v : vec T).

  (** Polygon.cpp:65-72 [Edge] for 0 <= i < size. *)
  Definition Poly_Edge ps (i : nat) : option (segment T) :=
    match ps with
    | [] => None
    | [p] => Some (Seg p p)
    | _ => match nth_error ps i, nth_error ps (Nat.modulo (i + 1) (length ps)) with Some a, Some b => Some (Seg a b) | _, _ => None end
    end.
  (** Polygon.cpp:256-271: the first triple of vertices that spans a plane. *)
  Fixpoint planeK (pi pij : vec T) (ks : list (vec T)) : option (plane T) :=
    match ks with
    | [] => None
    | pk :: rest =>
        let normal := Cross pij (vsub pk pi) in
        let lenSq := LengthSq normal in
        if lenSq >? nlit 1 100000000 then let normal := vdivs normal (nsqrt lenSq) in Some (Pln normal (Dot normal pi)) else planeK pi pij rest
    end.
  Fixpoint planeJ (pi : vec T) (js : list (vec T)) : option (plane T) :=
    match js with
    | [] => None
    | pj :: rest => match planeK pi (vsub pj pi) rest with Some P => Some P | None => planeJ pi rest end
    end.
  Fixpoint planeI (is : list (vec T)) : option (plane T) :=
    match is with
    | [] => None
    | pi :: rest => match planeJ pi rest with Some P => Some P | None => planeI rest end
    end.
  (** Polygon.cpp:280-283, 287-291: any plane through a line. *)
  Definition planeAlong p q : plane T :=
    let dir := Normalized (vsub q p) in Plane_FromLine (Ln p dir) (Perpendicular dir (V3 n0 n1 n0) (V3 n0 n0 n1)).
  (** Polygon.cpp:250-295 [PlaneCCW], 297-302 [PlaneCW], 238-248 [NormalCCW], [NormalCW]. *)
  Definition Poly_PlaneCCW ps : option (plane T) :=
    match ps with
    | [] => None
    | [p] => Some (Plane_Set p (V3 n0 n1 n0))
    | [p; q] => Some (planeAlong p q)
    | [p; q; v] => Some (Plane_Set3 p q v)
    | p :: q :: _ => Some (match planeI ps with Some P => P | None => planeAlong p q end)
    end.
  Definition Poly_PlaneCW ps : option (plane T) := option_map Plane_ReverseNormal (Poly_PlaneCCW ps).
  Definition Poly_NormalCCW ps : option (vec T) := option_map pnormal (Poly_PlaneCCW ps).
  (** Polygon.cpp:113-120 [BasisU], 122-127 [BasisV]. *)
  Definition Poly_BasisU ps : vec T := match ps with p :: q :: _ => Normalized (vsub q p) | _ => V3 n1 n0 n0 end.
  Definition Poly_BasisV ps : vec T :=
    match ps with
    | _ :: _ :: _ => match Poly_PlaneCCW ps with Some P => Normalized (Cross (pnormal P) (Poly_BasisU ps)) | None => V3 n0 n1 n0 end
    | _ => V3 n0 n1 n0
    end.
  (** Polygon.cpp:171-178 [MapTo2D], 180-184 [MapFrom2D]. *)
  Definition Poly_MapTo2D ps p : option (v2 T) :=
    match ps with
    | [] => None
    | p0 :: _ => let pt := vsub p p0 in Some (V2 (Dot pt (Poly_BasisU ps)) (Dot pt (Poly_BasisV ps)))
    end.
  Definition Poly_MapFrom2D ps (point : v2 T) : option (vec T) :=
    match ps with
    | [] => None
    | p0 :: _ => Some (vadd (vadd p0 (smulv (x2 point) (Poly_BasisU ps))) (smulv (y2 point) (Poly_BasisV ps)))
    end.
  (** Polygon.cpp:186-201 [IsPlanar]. *)
  Definition Poly_IsPlanar ps (epsilonSq : T) : bool :=
    match ps with
    | [] => false
    | p0 :: p1 :: p2 :: rest =>
        let normal := Cross (vsub p1 p0) (vsub p2 p0) in
        let lenSq := LengthSq normal in
        forallb (fun p => let d := Dot normal (vsub p p0) in negb (d * d >? epsilonSq * lenSq)) rest
    | _ => true
    end.
  (** Polygon.cpp:138-162 [IsConvex], on the vertices mapped to the plane. *)
  Fixpoint convexFrom (a b : v2 T) (vs : list (v2 T)) : bool :=
    match vs with
    | [] => true
    | c :: rest => if OrientedCCW a b c then convexFrom b c rest else false
    end.
  Definition Poly_To2D ps : list (v2 T) := match ps with [] => [] | p0 :: _ => map (fun p => let pt := vsub p p0 in V2 (Dot pt (Poly_BasisU ps)) (Dot pt (Poly_BasisV ps))) ps end.
  Definition Poly_IsConvex ps : bool :=
    match ps with
    | [] => false
    | _ :: _ :: _ :: _ :: _ => match rev (Poly_To2D ps) with b :: a :: _ => convexFrom a b (Poly_To2D ps) | _ => true end
    | _ => true
    end.
  (** Polygon.cpp:376-408: one edge against the ray (0,0) -> (+inf, 0), and the nudge of vertices close to it. *)
  Definition rayCrosses (p0 p1 : v2 T) : bool :=
    if y2 p0 * y2 p1 <? n0 then
      if Min (x2 p0) (x2 p1) >? n0 then true
      else if Max (x2 p0) (x2 p1) >? n0 then
        let d := sub2 p1 p0 in
        if neqb (y2 d) n0 then false
        else let t := - y2 p0 / y2 d in let x := x2 p0 + t * x2 d in (t >=? n0) && (t <=? n1) && (x >? n0)
      else false
    else false.
  Definition nudge (q : v2 T) : v2 T := if Abs (y2 q) <? nlit 1 10000 then V2 (x2 q) (- nlit 1 10000) else q.
  Fixpoint crossings (p0 : v2 T) (vs : list (v2 T)) : nat :=
    match vs with
    | [] => O
    | p1 :: rest => ((if rayCrosses p0 p1 then 1 else 0) + crossings p1 rest)%nat
    end.
  (** Polygon.cpp:347-412 [Contains(vec)], 339-345 [Contains(Polygon)]. *)
  Definition Poly_Contains ps (worldSpacePoint : vec T) (polygonThicknessSq : T) : bool :=
    match ps with
    | p0 :: _ :: _ :: _ =>
        let basisU := Poly_BasisU ps in
        let basisV := Poly_BasisV ps in
        let normal := Cross basisU basisV in
        let dot := Dot normal (vsub p0 worldSpacePoint) in
        if dot * dot >? polygonThicknessSq then false
        else
          let to2D p := let vt := vsub p worldSpacePoint in nudge (V2 (Dot vt basisU) (Dot vt basisV)) in
          Nat.eqb (Nat.modulo (crossings (to2D (last ps p0)) (map to2D ps)) 2) 1
    | _ => false
    end.
  Definition Poly_ContainsPolygon ps (other : list (vec T)) (polygonThickness : T) : bool := forallb (fun v => Poly_Contains ps v polygonThickness) other.
  (** Polygon.cpp:304-337 [Translate], [Transform]. *)
  Definition Poly_Translate ps (offset : vec T) : list (vec T) := map (fun p => vadd p offset) ps.
  Definition Poly_Transform3 ps (m : mat3 T) : list (vec T) := map (mulv m) ps.
  Definition Poly_Transform34 ps (m : mat34 T) : list (vec T) := map (mulpos34 m) ps.
  (** Polygon.cpp:491-519 [Intersects(Line)], [Intersects(Ray)]; the point is tested with the default squared thickness 1e-5 (Polygon.h:278). *)
  Definition Poly_IntersectsLine ps (l : line T) : bool :=
    match Poly_PlaneCCW ps with Some P => let '(hit, d) := Plane_IntersectsLine P l in if hit then Poly_Contains ps (Line_GetPoint l d) (nlit 1 100000) else false | None => false end.
  Definition Poly_IntersectsRay ps (r : ray T) : bool :=
    match Poly_PlaneCCW ps with Some P => let '(hit, d) := Plane_IntersectsRay P r in if hit then Poly_Contains ps (Ray_GetPoint r d) (nlit 1 100000) else false | None => false end.
  (** Polygon.cpp:466-489 [Intersects2D], 441-464 [Contains2D]; the edges are tested with the default epsilon 1e-3 (LineSegment.h:223). *)
  Fixpoint edgesHit (a : vec T) (vs : list (vec T)) (s : segment T) : bool :=
    match vs with
    | [] => false
    | b :: rest => if Seg_IntersectsSeg (Seg a b) s (nlit 1 1000) then true else edgesHit b rest s
    end.
  Definition flat ps p : vec T := V3 (Dot p (Poly_BasisU ps)) (Dot p (Poly_BasisV ps)) n0.
  Definition Poly_Intersects2D ps (s : segment T) : bool :=
    match ps with
    | p0 :: _ :: _ :: _ =>
        if edgesHit (flat ps (last ps p0)) (map (flat ps) ps) s then true
        else match Poly_MapFrom2D ps (V2 (vx (seg_a s)) (vy (seg_a s))) with Some p => Poly_Contains ps p (nlit 1 100000) | None => false end
    | _ => false
    end.
  Definition Poly_Contains2D ps (s : segment T) : bool :=
    match ps with
    | p0 :: _ :: _ :: _ =>
        if edgesHit (flat ps (last ps p0)) (map (flat ps) ps) s then false
        else match Poly_MapFrom2D ps (V2 (vx (seg_a s)) (vy (seg_a s))) with Some p => Poly_Contains ps p (nlit 1 100000) | None => false end
    | _ => false
    end.
  (** Polygon.cpp:521-540 [Intersects(LineSegment)]. *)
  Definition Poly_IntersectsSeg ps (s : segment T) : bool :=
    match Poly_PlaneCCW ps with
    | None => false
    | Some P =>
        let denom := Dot (pnormal P) (vsub (seg_b s) (seg_a s)) in
        if Abs denom <? nlit 1 10000 then
          match Poly_MapTo2D ps (seg_a s), Poly_MapTo2D ps (seg_b s) with
          | Some a, Some b => Poly_Intersects2D ps (Seg (V3 (x2 a) (y2 a) n0) (V3 (x2 b) (y2 b) n0))
          | _, _ => false
          end
        else
          let t := (pd P - Dot (pnormal P) (seg_a s)) / denom in
          if (t <? n0) || (t >? n1) then false else Poly_Contains ps (Seg_GetPoint s t) (nlit 1 100000)
    end.
  (** Polygon.cpp:542-556 [Intersects(Plane)]; the first vertex replaces both infinities. *)
  Definition Poly_IntersectsPlane ps (P : plane T) : bool :=
    match ps with
    | [] => false
    | p :: rest =>
        let d0 := Plane_SignedDistance P p in
        let '(minD, maxD) := fold_left (fun '(lo, hi) v => let d := Plane_SignedDistance P v in (Min lo d, Max hi d)) rest (d0, d0) in
        (minD <=? nlit 1 10000) && (maxD >=? - nlit 1 10000)
    end.
  (** Polygon.cpp:414-432 [Contains(LineSegment)]: the projected segment must not come within 1e-3 of a projected edge. *)
  Fixpoint polyEdges (a : vec T) (vs : list (vec T)) : list (segment T) := match vs with [] => [] | b :: rest => Seg a b :: polyEdges b rest end.
  Definition Poly_Edges ps : list (segment T) := match ps with [] => [] | p0 :: rest => polyEdges p0 (rest ++ [p0]) end.
  Definition Poly_ContainsSeg ps (s : segment T) (polygonThickness : T) : bool :=
    match ps, Poly_PlaneCCW ps with
    | _ :: _ :: _ :: _, Some P =>
        if (Plane_Distance P (seg_a s) >? polygonThickness) || (Plane_Distance P (seg_b s) >? polygonThickness) then false
        else
          let l := Plane_ProjectSeg P s in
          if negb (Poly_Contains ps (seg_a l) (nlit 1 100000)) || negb (Poly_Contains ps (seg_b l) (nlit 1 100000)) then false
          else forallb (fun e => negb (Seg_IntersectsSeg (Plane_ProjectSeg P e) l (nlit 1 1000))) (Poly_Edges ps)
    | _, _ => false
    end.

  (** Polygon.cpp:777-802 [EdgeNormal], [EdgePlane], [ExtremePoint] (the first vertex beats -inf), 804-811 [ProjectToAxis]. *)
  Definition Poly_EdgeNormal ps (i : nat) : option (vec T) :=
    match Poly_Edge ps i, Poly_PlaneCCW ps with Some e, Some P => Some (Normalized (Cross (Seg_Dir e) (pnormal P))) | _, _ => None end.
  Definition Poly_EdgePlane ps (i : nat) : option (plane T) :=
    match Poly_Edge ps i, Poly_EdgeNormal ps i with Some e, Some n => Some (Plane_Set (seg_a e) n) | _, _ => None end.
  Definition Poly_ExtremePoint ps (direction : vec T) : option (vec T * T) :=
    match ps with
    | [] => None
    | p :: rest => Some (fold_left (fun best q => let d := Dot direction q in if d >? snd best then (q, d) else best) rest (p, Dot direction p))
    end.
  Definition Poly_ProjectToAxis ps (direction : vec T) : option (T * T) :=
    match Poly_ExtremePoint ps (vneg direction), Poly_ExtremePoint ps direction with
    | Some (minPt, _), Some (maxPt, _) => Some (Dot minPt direction, Dot maxPt direction)
    | _, _ => None
    end.
  (** Polygon.cpp:826-842 [Area], 844-850 [Perimeter], 853-861 [Centroid]. *)
  Fixpoint crossSum (acc a : vec T) (vs : list (vec T)) : vec T := match vs with [] => acc | b :: rest => crossSum (vadd acc (Cross a b)) b rest end.
  Definition Poly_Area ps : T :=
    match ps with
    | p0 :: _ :: _ :: _ => match Poly_NormalCCW ps with Some n => nhalf * Abs (Dot n (crossSum (V3 n0 n0 n0) (last ps p0) ps)) | None => n0 end
    | _ => n0
    end.
  Definition Poly_Perimeter ps : T := fold_left (fun acc e => acc + Seg_Length e) (Poly_Edges ps) n0.
  Definition Poly_Centroid ps : option (vec T) :=
    match ps with [] => None | _ => Some (vdivs (fold_left vadd ps (V3 n0 n0 n0)) (nlit (Z.of_nat (length ps)) 1)) end.
  (** Polygon.cpp:863-883 [PointOnEdge] for a normalized distance in [0,1[ (the argument after Frac). *)
  Fixpoint edgeWalk (es : list (segment T)) (d : T) : option (vec T) :=
    match es with
    | [] => None
    | e :: rest => let len := Seg_Length e in if d <=? len then Some (Seg_GetPoint e (d / len)) else edgeWalk rest (d - len)
    end.
  Definition Poly_PointOnEdge ps (normalizedDistance : T) : option (vec T) :=
    match ps with
    | [] => None
    | [p] => Some p
    | p :: _ => match edgeWalk (Poly_Edges ps) (normalizedDistance * Poly_Perimeter ps) with Some q => Some q | None => Some p end
    end.
  (** Polygon.cpp:1063-1070 [MinimalEnclosingAABB]; enclosing the first vertex in the negative infinite box gives that vertex. *)
  Definition Poly_MinimalEnclosingAABB ps : option (aabb T) :=
    match ps with [] => None | p :: rest => Some (fold_left AABB_Enclose rest (Box p p)) end.

  (** Polygon.cpp:918-939 [IntersectLineLine2D], [IntersectLineSegmentLineSegment2D]. *)
  Definition IntersectLineLine2D (a1 a2 b1 b2 : v2 T) : option (v2 T) :=
    let u := (x2 b2 - x2 b1) * (y2 a1 - y2 b1) - (y2 b2 - y2 b1) * (x2 a1 - x2 b1) in
    let v := (x2 a2 - x2 a1) * (y2 a1 - y2 b1) - (y2 a2 - y2 a1) * (x2 a1 - x2 b1) in
    let det := (y2 b2 - y2 b1) * (x2 a2 - x2 a1) - (x2 b2 - x2 b1) * (y2 a2 - y2 a1) in
    if Abs det <? nlit 1 10000 then None
    else let det := n1 / det in Some (V2 (u * det) (v * det)).
  Definition IntersectSegSeg2D (a1 a2 b1 b2 : v2 T) : bool :=
    match IntersectLineLine2D a1 a2 b1 b2 with
    | Some out => (x2 out >=? n0) && (x2 out <=? n1) && (y2 out >=? n0) && (y2 out <=? n1)
    | None => false
    end.
  (** Polygon.cpp:941-962 [IsAnEar]: the segment from a to b against the edges of a chain. *)
  Fixpoint chainHit (a b x : v2 T) (ys : list (v2 T)) : bool :=
    match ys with
    | [] => false
    | y :: rest => if IntersectSegSeg2D a b x y then true else chainHit a b y rest
    end.
  Definition IsAnEar (poly : list (v2 T)) (i j : nat) : bool :=
    match nth_error poly i, nth_error poly j, poly with
    | Some a, Some b, v :: _ =>
        if chainHit a b (last poly v) (firstn i poly) then false
        else match skipn (j + 1) poly with [] => true | x :: ys => negb (chainHit a b x ys) end
    | _, _, _ => false
    end.
  Definition removeAt {A : Type} (l : list A) (j : nat) : list A := firstn j l ++ skipn (j + 1) l.
  (** Polygon.cpp:968-1061 [Triangulate]: the loop over the mapped vertices paired with the vertices themselves.  The
      list [vs] pairs p2d[v] with p[polyIndices[v]].  The counter [fuel] is the number of rounds allowed; (n+1)^2 rounds
      suffice since each clipping resets at most n failed tries. *)
  Fixpoint earLoop (fuel : nat) (vs : list (v2 T * vec T)) (i j k numTries : nat) (t : list (triangle T)) : list (v2 T * vec T) * list (triangle T) :=
    match fuel with
    | O => (vs, t)
    | S fuel =>
        if (Nat.ltb 3 (length vs) && Nat.ltb numTries (length vs))%bool then
          match nth_error vs i, nth_error vs j, nth_error vs k with
          | Some a, Some b, Some c =>
              if OrientedCCW (fst a) (fst b) (fst c) && IsAnEar (map fst vs) i k then
                let t := t ++ [Tri (snd a) (snd b) (snd c)] in
                let vs' := removeAt vs j in
                let n := length vs' in
                if Nat.ltb 0 i then earLoop fuel vs' (Nat.modulo (i + n - 1) n) (Nat.modulo (j + n - 1) n) (Nat.modulo (k + n - 1) n) 0 t
                else earLoop fuel vs' i j k 0 t
              else earLoop fuel vs j k (Nat.modulo (k + 1) (length vs)) (numTries + 1) t
          | _, _, _ => (vs, t)
          end
        else (vs, t)
    end.
  Definition Poly_Triangulate ps : list (triangle T) :=
    match ps with
    | [a; b; c] => [Tri a b c]
    | _ :: _ :: _ :: _ :: _ =>
        let n := length ps in
        let '(vs, t) := earLoop ((n + 1) * (n + 1)) (combine (Poly_To2D ps) ps) 0 1 2 0 [] in
        match map snd vs with [a; b; c] => t ++ [Tri a b c] | _ => t end
    | _ => []
    end.
  (** Polygon.cpp:727-745 [ClosestPoint(vec)] (FLT_MAX is above every squared distance: the first triangle is always taken), 771-775
      [Distance], the sphere test is in PolyMeetModel.v. *)
  Definition Poly_ClosestPoint ps (point : vec T) : option (vec T) :=
    match map (fun t => Tri_ClosestPoint t point) (Poly_Triangulate ps) with
    | [] => None
    | p :: rest => Some (fst (fold_left (fun best q => let d := DistanceSq q point in if d <? snd best then (q, d) else best) rest (p, DistanceSq p point)))
    end.
  Definition Poly_Distance ps (point : vec T) : option T := option_map (fun q => Distance q point) (Poly_ClosestPoint ps point).
End Polygon.
