(** GJK intersection test (/repo/src/Algorithm/GJK.h, GJK.cpp), scalar build, without MATH_ASSERT_CORRECTNESS. *)
From Coq Require Import List Bool ZArith.
From Verif Require Import Num ScalarModel Vec3Model GeoTypes AabbModel LineModel SphereModel TriangleModel ObbModel CapsuleModel RotModel FrustumModel.
Import ListNotations.

(** What the templates use of a shape: AnyPointFast() and ExtremePoint(direction, projectionDistance). *)
Record shape (T : Type) := Shape { anyPoint : vec T; extremePoint : vec T -> vec T * T }.
Arguments Shape {T}. Arguments anyPoint {T}. Arguments extremePoint {T}.
(** The search simplex between iterations: the first n = 1, 2 or 3 entries of the array [support]. *)
Inductive simplex (T : Type) := S1 (s0 : vec T) | S2 (s0 s1 : vec T) | S3 (s0 s1 s2 : vec T).
Arguments S1 {T}. Arguments S2 {T}. Arguments S3 {T}.
(** How the test ends: both negative ends return false. *)
Inductive outcome := Hit | Miss | GaveUp.

Section Gjk.
  Context {T : Type} `{NT : Num T}.
  Local Open Scope num_scope.
  Implicit Types (s : vec T).

  (** GJK.cpp:35-71 [UpdateSimplex] with n == 2.  [None]: n = 0. *)
  Definition UpdateSimplex2 s0 s1 : option (simplex T * vec T) :=
    let d01 := vsub s1 s0 in
    let newSearchDir := Cross d01 (Cross d01 s1) in
    if LengthSq newSearchDir >? nlit 1 10000000 then Some (S2 s0 s1, newSearchDir) else None.
  (** GJK.cpp:72-178 [UpdateSimplex] with n == 3. *)
  Definition UpdateSimplex3 s0 s1 s2 : option (simplex T * vec T) :=
    let d12 := vsub s2 s1 in
    let d02 := vsub s2 s0 in
    let triNormal := Cross d02 d12 in
    let e12 := Cross d12 triNormal in
    let t12 := Dot s1 e12 in
    if t12 <? n0 then Some (S2 s1 s2, Cross d12 (Cross d12 s1))
    else
      let e02 := Cross triNormal d02 in
      let t02 := Dot s0 e02 in
      if t02 <? n0 then Some (S2 s0 s2, Cross d02 (Cross d02 s0))
      else
        let scaledSignedDistToTriangle := Dot triNormal s2 in
        let distSq := scaledSignedDistToTriangle * scaledSignedDistToTriangle in
        let scaledEpsilonSq := nlit 1 1000000 * LengthSq triNormal in
        if distSq >? scaledEpsilonSq then
          if scaledSignedDistToTriangle <=? n0 then Some (S3 s0 s1 s2, triNormal)
          else Some (S3 s1 s0 s2, vneg triNormal)
        else None.
  (** GJK.cpp:179-356 [UpdateSimplex] with n == 4. *)
  Definition UpdateSimplex4 s0 s1 s2 s3 : option (simplex T * vec T) :=
    let d01 := vsub s1 s0 in
    let d02 := vsub s2 s0 in
    let d03 := vsub s3 s0 in
    let tri013Normal := Cross d01 d03 in
    let tri023Normal := Cross d03 d02 in
    let e03_1 := Cross tri013Normal d03 in
    let e03_2 := Cross d03 tri023Normal in
    let inE03_1 := Dot e03_1 s3 in
    let inE03_2 := Dot e03_2 s3 in
    if (inE03_1 <=? n0) && (inE03_2 <=? n0) then Some (S2 s0 s3, Cross d03 (Cross d03 s3))
    else
      let d12 := vsub s2 s1 in
      let d13 := vsub s3 s1 in
      let tri123Normal := Cross d12 d13 in
      let e13_0 := Cross d13 tri013Normal in
      let e13_2 := Cross tri123Normal d13 in
      let inE13_0 := Dot e13_0 s3 in
      let inE13_2 := Dot e13_2 s3 in
      if (inE13_0 <=? n0) && (inE13_2 <=? n0) then Some (S2 s1 s3, Cross d13 (Cross d13 s3))
      else
        let d23 := vsub s3 s2 in
        let e23_0 := Cross tri023Normal d23 in
        let e23_1 := Cross d23 tri123Normal in
        let inE23_0 := Dot e23_0 s3 in
        let inE23_1 := Dot e23_1 s3 in
        if (inE23_0 <=? n0) && (inE23_1 <=? n0) then Some (S2 s2 s3, Cross d23 (Cross d23 s3))
        else
          let inTri013 := Dot s3 tri013Normal in
          if (inTri013 <? n0) && (inE13_0 >=? n0) && (inE03_1 >=? n0) then Some (S3 s0 s1 s3, tri013Normal)
          else
            let inTri023 := Dot s3 tri023Normal in
            if (inTri023 <? n0) && (inE23_0 >=? n0) && (inE03_2 >=? n0) then Some (S3 s2 s0 s3, tri023Normal)
            else
              let inTri123 := Dot s3 tri123Normal in
              if (inTri123 <? n0) && (inE13_2 >=? n0) && (inE23_1 >=? n0) then Some (S3 s1 s2 s3, tri123Normal)
              else None.
  (** GJK.h:57-60: the new point is appended at index n and [UpdateSimplex] called. *)
  Definition UpdateSimplex (S : simplex T) newSupport : option (simplex T * vec T) :=
    match S with
    | S1 s0 => UpdateSimplex2 s0 newSupport
    | S2 s0 s1 => UpdateSimplex3 s0 s1 newSupport
    | S3 s0 s1 s2 => UpdateSimplex4 s0 s1 s2 newSupport
    end.
  (** GJK.h:42-68 [GJKIntersect]: the loop, with [nIterations] iterations left. *)
  Fixpoint gjkLoop (a b : shape T) (nIterations : nat) (S : simplex T) (d : vec T) : outcome :=
    match nIterations with
    | O => GaveUp
    | Datatypes.S k =>
        let '(pa, maxS) := extremePoint a d in
        let '(pb, minS) := extremePoint b (vneg d) in
        let newSupport := vsub pa pb in
        if minS + maxS <? n0 then Miss
        else match UpdateSimplex S newSupport with
             | None => Hit
             | Some (S', d') => gjkLoop a b k S' d'
             end
    end.
  (** GJK.h:32-68 [GJKIntersect]. *)
  Definition gjkRun (a b : shape T) : outcome :=
    let support0 := vsub (anyPoint a) (anyPoint b) in
    if LengthSq support0 <? nlit 1 10000000 then Hit else gjkLoop a b 50 (S1 support0) (vneg support0).
  Definition GJKIntersect (a b : shape T) : bool := match gjkRun a b with Hit => true | _ => false end.

  (** The shapes: LineSegment.h:84, LineSegment.cpp [ExtremePoint]; Triangle.h:188; AABB.h:166, AABB.cpp:251-263; OBB.h:215; Sphere.h:108; Capsule.h:98.
      AABB.cpp:258-263 [ExtremePoint(direction, projectionDistance)]. *)
  Definition shapeSegment (x : segment T) : shape T := Shape (seg_a x) (Seg_ExtremePointDist x).
  Definition shapeTriangle (x : triangle T) : shape T := Shape (tri_a x) (Tri_ExtremePointDist x).
  Definition shapeAABB (x : aabb T) : shape T := Shape (minPoint x) (fun d => let e := AABB_ExtremePoint x d in (e, Dot e d)).
  Definition shapeOBB (x : obb T) : shape T := Shape (opos x) (OBB_ExtremePointDist x).
  Definition shapeSphere (x : sphere T) : shape T := Shape (spos x) (Sphere_ExtremePointDist x).
  Definition shapeCapsule (x : capsule T) : shape T := Shape (seg_a (cap_l x)) (Capsule_ExtremePointDist x).

  (** GJK.h:70-79 [FloatingPointOffsetedGJKIntersect], as called by Capsule.cpp:405-410 [Intersects(AABB)]; 412-415 [Intersects(OBB)]. *)
  Definition Capsule_IntersectsAABB (c : capsule T) (b : aabb T) : bool :=
    let ab := Capsule_MinimalEnclosingAABB c in
    let offset := vmuls (vadd (vMin (minPoint ab) (minPoint b)) (vMax (maxPoint ab) (maxPoint b))) nhalf in
    GJKIntersect (shapeCapsule (Capsule_Translate c (vneg offset))) (shapeAABB (AABB_Translate b (vneg offset))).
  Definition Capsule_IntersectsOBB (c : capsule T) (o : obb T) : bool := GJKIntersect (shapeCapsule c) (shapeOBB o).
End Gjk.

Section GjkFrustum.
  Context {T : Type} `{TT : NumTrig T}.
  (** Frustum.h:367, Frustum.cpp:1054-1067, 1074-1077, 1084-1097 [Intersects]. *)
  Definition shapeFrustum (x : frustum T) : shape T := Shape (Frustum_CornerPoint x 0) (Frustum_ExtremePoint x).
  Definition Frustum_IntersectsSegment (f : frustum T) (x : segment T) : bool := GJKIntersect (shapeFrustum f) (shapeSegment x).
  Definition Frustum_IntersectsAABB (f : frustum T) (x : aabb T) : bool := GJKIntersect (shapeFrustum f) (shapeAABB x).
  Definition Frustum_IntersectsOBB (f : frustum T) (x : obb T) : bool := GJKIntersect (shapeFrustum f) (shapeOBB x).
  Definition Frustum_IntersectsTriangle (f : frustum T) (x : triangle T) : bool := GJKIntersect (shapeFrustum f) (shapeTriangle x).
  Definition Frustum_IntersectsSphere (f : frustum T) (x : sphere T) : bool := GJKIntersect (shapeFrustum f) (shapeSphere x).
  Definition Frustum_IntersectsCapsule (f : frustum T) (x : capsule T) : bool := GJKIntersect (shapeFrustum f) (shapeCapsule x).
  Definition Frustum_IntersectsFrustum (f x : frustum T) : bool := GJKIntersect (shapeFrustum f) (shapeFrustum x).
End GjkFrustum.
