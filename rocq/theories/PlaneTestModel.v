(** Plane intersection tests: GJK in 2D (/repo/src/Algorithm/GJK2D.h, GJK2D.cpp) and the separating axis tests of convex polygons (/repo/src/Algorithm/SAT.cpp).
    vec2d is float2 (scalar build), without MATH_ASSERT_CORRECTNESS.  A polygon is the list of its vertices. *)
From Coq Require Import List Bool ZArith.
From Verif Require Import Num ScalarModel Vec2Model HullModel GjkModel.
Import ListNotations.

(** What the template uses of a shape: AnyPointFast() and ExtremePoint(direction, projectionDistance). *)
Record shape2 (T : Type) := Shape2 { anyPoint2 : v2 T; extremePoint2 : v2 T -> v2 T * T }.
Arguments Shape2 {T}. Arguments anyPoint2 {T}. Arguments extremePoint2 {T}.
(** The search simplex between iterations: the first n = 1 or 2 entries of the array [support]. *)
Inductive simplex2 (T : Type) := P1 (s0 : v2 T) | P2 (s0 s1 : v2 T).
Arguments P1 {T}. Arguments P2 {T}.

Section PlaneTests.
  Context {T : Type} `{NT : Num T}.
  Local Open Scope num_scope.
  Implicit Types (s p d : v2 T).

  (** GJK2D.cpp:36-72 [UpdateSimplex2D] with n == 2.  [None]: n = 0. *)
  Definition UpdateSimplex2D_2 s0 s1 : option (simplex2 T * v2 T) :=
    let d01 := sub2 s1 s0 in
    let newSearchDir := Perp2 d01 in
    if LengthSq2 newSearchDir >? nlit 1 10000000 then Some (P2 s0 s1, if Dot2 newSearchDir s0 <=? n0 then newSearchDir else neg2 newSearchDir) else None.
  (** GJK2D.cpp:73-155 [UpdateSimplex2D] with n == 3. *)
  Definition UpdateSimplex2D_3 s0 s1 s2 : option (simplex2 T * v2 T) :=
    let d12 := sub2 s2 s1 in
    let d02 := sub2 s2 s0 in
    let e12 := Perp2 d12 in
    let e12 := if Dot2 d02 e12 <=? n0 then neg2 e12 else e12 in
    let t12 := Dot2 s1 e12 in
    if t12 <? n0 then Some (P2 s1 s2, e12)
    else
      let e02 := Perp2 d02 in
      let e02 := if Dot2 d12 e02 <=? n0 then neg2 e02 else e02 in
      let t02 := Dot2 s0 e02 in
      if t02 <? n0 then Some (P2 s0 s2, e02) else None.
  Definition UpdateSimplex2D (S : simplex2 T) newSupport : option (simplex2 T * v2 T) :=
    match S with
    | P1 s0 => UpdateSimplex2D_2 s0 newSupport
    | P2 s0 s1 => UpdateSimplex2D_3 s0 s1 newSupport
    end.
  (** GJK2D.h:36-71 [GJKIntersect2D]: the loop with [nIterations] iterations left, and the function. *)
  Fixpoint gjkLoop2D (a b : shape2 T) (nIterations : nat) (S : simplex2 T) d : outcome :=
    match nIterations with
    | O => GaveUp
    | Datatypes.S k =>
        let '(pa, maxS) := extremePoint2 a d in
        let '(pb, minS) := extremePoint2 b (neg2 d) in
        let newSupport := sub2 pa pb in
        if minS + maxS <? n0 then Miss
        else match UpdateSimplex2D S newSupport with
             | None => Hit
             | Some (S', d') => gjkLoop2D a b k S' d'
             end
    end.
  Definition gjkRun2D (a b : shape2 T) : outcome :=
    let support0 := sub2 (anyPoint2 a) (anyPoint2 b) in
    if LengthSq2 support0 <? nlit 1 10000000 then Hit else gjkLoop2D a b 50 (P1 support0) (neg2 support0).
  Definition GJKIntersect2D (a b : shape2 T) : bool := match gjkRun2D a b with Hit => true | _ => false end.

  (** Polygon2DRef.h:19-41 (the start value -inf is below every projection, so the first point is always taken; [None]: no points, the asserts fail). *)
  Definition shapePolygon (points : list (v2 T)) : option (shape2 T) :=
    match points with
    | [] => None
    | p :: rest =>
        Some (Shape2 p (fun direction => fold_left (fun best q => let d := Dot2 direction q in if d >? snd best then (q, d) else best) rest (p, Dot2 direction p)))
    end.
  (** GJK2D.h:82-94 [GJKVec2DProxy], 104-124 [GJKOBB2DProxy]. *)
  Definition shapePoint (v : v2 T) : shape2 T := Shape2 v (fun direction => (v, Dot2 v direction)).
  Definition OBB2DProxy_ExtremePoint (center axis0 axis1 direction : v2 T) : v2 T :=
    let pt := add2 center (muls2 axis0 (if Dot2 direction axis0 >=? n0 then n1 else - n1)) in
    add2 pt (muls2 axis1 (if Dot2 direction axis1 >=? n0 then n1 else - n1)).
  Definition shapeOBB2D (center axis0 axis1 : v2 T) : shape2 T :=
    Shape2 center (fun direction => let e := OBB2DProxy_ExtremePoint center axis0 axis1 direction in (e, Dot2 e direction)).
  (** GJK2D.h:74-79 [GJKIntersect2D(polygons)], 96-101 [GJKContainsPt2D], 126-131 [GJKIntersectOBB2D]. *)
  Definition GJKPolygons (a b : list (v2 T)) : option bool :=
    match shapePolygon a, shapePolygon b with Some x, Some y => Some (GJKIntersect2D x y) | _, _ => None end.
  Definition GJKContainsPt2D (a : list (v2 T)) (b : v2 T) : option bool := match shapePolygon a with Some x => Some (GJKIntersect2D x (shapePoint b)) | None => None end.
  Definition GJKIntersectOBB2D (a : list (v2 T)) (center axis0 axis1 : v2 T) : option bool :=
    match shapePolygon a with Some x => Some (GJKIntersect2D x (shapeOBB2D center axis0 axis1)) | None => None end.

  (** SAT.cpp:6-18 [HasCcwWindingOrder].  For fewer than two vertices the code reads in front of the array: [None]. *)
  Fixpoint ccwFrom (prev2 prev1 : v2 T) (poly : list (v2 T)) : bool :=
    match poly with
    | [] => true
    | p :: rest => if PerpDot2D prev2 prev1 p <? - nlit 1 100 then false else ccwFrom prev1 p rest
    end.
  Definition HasCcwWindingOrder (poly : list (v2 T)) : option bool :=
    match rev poly with
    | prev1 :: prev2 :: _ => Some (ccwFrom prev2 prev1 poly)
    | _ => None
    end.
  (** SAT.cpp:41-46: the smallest projection of the vertices [b0 :: bs] on the edge normal. *)
  Definition minPerp (edge : v2 T) (b0 : v2 T) (bs : list (v2 T)) : T := fold_left (fun m q => Min m (PerpDot2 q edge)) bs (PerpDot2 b0 edge).
  (** SAT.cpp:29-48: the loop over the edges of one polygon against the vertices [b0 :: bs] of the other; false when an edge separates. *)
  Fixpoint satEdges (prev : v2 T) (a : list (v2 T)) (b0 : v2 T) (bs : list (v2 T)) : bool :=
    match a with
    | [] => true
    | p :: rest =>
        let edge := sub2 p prev in
        let maxThis := PerpDot2 p edge in
        let minOther := minPerp edge b0 bs in
        if minOther >? maxThis then false else satEdges p rest b0 bs
    end.
  (** SAT.cpp:20-64 [SATCollide2D].  [None]: an empty polygon, the asserts fail. *)
  Definition SATCollide2D (a b : list (v2 T)) : option bool :=
    match a, b with
    | a0 :: arest, b0 :: brest => Some (if satEdges (last a a0) a b0 brest then satEdges (last b b0) b a0 arest else false)
    | _, _ => None
    end.
  (** SAT.cpp:84-94: the smallest projection and the vertex it comes from. *)
  Definition minPerpArg (edge : v2 T) (b0 : v2 T) (bs : list (v2 T)) : T * v2 T :=
    fold_left (fun best q => let penetrationDistance := PerpDot2 q edge in if penetrationDistance <? fst best then (penetrationDistance, q) else best) bs (PerpDot2 b0 edge, b0).
  (** What the collision function keeps: the greatest (least negative) distance with its normal and point; [None] while it is -inf and the outputs are unset. *)
  Definition contact := option (T * v2 T * v2 T).
  (** SAT.cpp:78-108: the loop over the edges of one polygon; [inl dist]: returned early with a positive distance.  [flip] for the second loop, whose normal is negated. *)
  Fixpoint contactEdges (flip : bool) (prev : v2 T) (a : list (v2 T)) (b0 : v2 T) (bs : list (v2 T)) (best : contact) : T + contact :=
    match a with
    | [] => inr best
    | p :: rest =>
        let edge := Normalized2 (sub2 p prev) in
        let maxThis := PerpDot2 p edge in
        let '(minOther, point) := minPerpArg edge b0 bs in
        let dist := minOther - maxThis in
        if dist >? n0 then inl dist
        else
          let normal := if flip then neg2 (Perp2 edge) else Perp2 edge in
          let best' := match best with
                       | Some (m, _, _) => if dist >? m then Some (dist, point, normal) else best
                       | None => Some (dist, point, normal)
                       end in
          contactEdges flip p rest b0 bs best'
    end.
  (** SAT.cpp:66-145 [SATCollide2D_CollisionPoint]: [inl dist] when an edge separates (outputs left as they were or half-way); otherwise the distance, the point and the normal. *)
  Definition SATCollide2D_CollisionPoint (a b : list (v2 T)) : option (T + contact) :=
    match a, b with
    | a0 :: arest, b0 :: brest =>
        Some (match contactEdges false (last a a0) a b0 brest None with
              | inl dist => inl dist
              | inr best => contactEdges true (last b b0) b a0 arest best
              end)
    | _, _ => None
    end.
End PlaneTests.
