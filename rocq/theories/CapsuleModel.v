(** Capsule (/repo/src/Geometry/Capsule.h, Capsule.cpp), scalar build: the points within [r] of a segment.

    Not modelled: [Intersects] with AABB, OBB, Frustum, Polygon and Polyhedron (the first two call the GJK algorithm, the
    others forward), [UniformPointPerhapsInside] and [RandomPointInside] (they go through OBB), [IsFinite], strings.
    [Distance] to a ray, line, segment, plane forwards to that primitive and is modelled there.  [Contains] of Polygon, OBB,
    Frustum and Polyhedron test a list of corner points: [Capsule_ContainsVertices]. *)
From Coq Require Import ZArith Bool List.
From Verif Require Import Num ScalarModel Vec3Model GeoTypes MatModel AabbModel LineModel RotModel PlaneModel SphereModel TriangleModel CircleModel.
Import ListNotations.

Section Capsule.
  Context {T : Type} `{NT : Num T}.
  Local Open Scope num_scope.
  Implicit Types (c : capsule T) (p v : vec T).

  (** Capsule.cpp:58-62 [SetFrom], 69-72 [IsDegenerate], 74-82 [LineLength], [Diameter], 89-92 [Center]. *)
  Definition Capsule_SetFrom (s : sphere T) : capsule T := Cap (Seg (spos s) (spos s)) (srad s).
  Definition Capsule_IsDegenerate c : bool := cap_r c <=? n0.
  Definition Capsule_LineLength c : T := Seg_Length (cap_l c).
  Definition Capsule_Diameter c : T := n2 * cap_r c.
  Definition Capsule_Center c : vec T := Seg_CenterPoint (cap_l c).
  (** Capsule.cpp:127-132 [UpDirection], 84-87 [Bottom], 122-125 [Top], 134-137 [Height], 164-167 [HeightLineSegment]. *)
  Definition Capsule_UpDirection c : vec T := Normalized (vsub (seg_b (cap_l c)) (seg_a (cap_l c))).
  Definition Capsule_Bottom c : vec T := vsub (seg_a (cap_l c)) (vmuls (Capsule_UpDirection c) (cap_r c)).
  Definition Capsule_Top c : vec T := vadd (seg_b (cap_l c)) (vmuls (Capsule_UpDirection c) (cap_r c)).
  Definition Capsule_Height c : T := Capsule_LineLength c + Capsule_Diameter c.
  Definition Capsule_HeightLineSegment c : segment T := Seg (Capsule_Bottom c) (Capsule_Top c).
  (** Capsule.cpp:94-106 [ExtremePoint], 108-120 [ProjectToAxis]. *)
  Definition Capsule_ExtremePoint c (direction : vec T) : vec T :=
    let len := Length direction in
    vadd (if Dot direction (vsub (seg_b (cap_l c)) (seg_a (cap_l c))) >=? n0 then seg_b (cap_l c) else seg_a (cap_l c)) (vmuls direction (cap_r c / len)).
  Definition Capsule_ExtremePointDist c (direction : vec T) : vec T * T :=
    let extremePoint := Capsule_ExtremePoint c direction in (extremePoint, Dot extremePoint direction).
  Definition Capsule_ProjectToAxis c (direction : vec T) : T * T :=
    let outMin := Dot direction (seg_a (cap_l c)) in
    let outMax := Dot direction (seg_b (cap_l c)) in
    let '(outMin, outMax) := if outMax <? outMin then (outMax, outMin) else (outMin, outMax) in
    (outMin - cap_r c, outMax + cap_r c).
  (** Capsule.cpp:139-147 [Volume], [SurfaceArea], for a given constant [pi]. *)
  Definition Capsule_Volume (pi : T) c : T :=
    pi * cap_r c * cap_r c * Capsule_LineLength c + nlit 4 1 * pi * cap_r c * cap_r c * cap_r c / nlit 3 1.
  Definition Capsule_SurfaceArea (pi : T) c : T :=
    n2 * pi * cap_r c * Capsule_LineLength c + nlit 4 1 * pi * cap_r c * cap_r c.
  (** Capsule.cpp:149-162 [CrossSection]. *)
  Definition Capsule_CrossSection c (yPos : T) : circle T :=
    let yPos := yPos * Capsule_Height c in
    let up := Capsule_UpDirection c in
    let centerPos := vadd (Capsule_Bottom c) (vmuls up yPos) in
    let r := cap_r c in
    if yPos <? r then Circ centerPos up (nsqrt (r * r - (r - yPos) * (r - yPos)))
    else if yPos <? Seg_Length (cap_l c) + r then Circ centerPos up r
    else let d := yPos - r - Seg_Length (cap_l c) in Circ centerPos up (nsqrt (r * r - d * d)).
  (** Capsule.cpp:185-193 [SphereA], [SphereB], 195-200 [MinimalEnclosingAABB], 202-212 [MinimalEnclosingOBB]. *)
  Definition Capsule_SphereA c : sphere T := Sph (seg_a (cap_l c)) (cap_r c).
  Definition Capsule_SphereB c : sphere T := Sph (seg_b (cap_l c)) (cap_r c).
  Definition Capsule_MinimalEnclosingAABB c : aabb T :=
    let d := V3 (cap_r c) (cap_r c) (cap_r c) in
    Box (vsub (vMin (seg_a (cap_l c)) (seg_b (cap_l c))) d) (vadd (vMax (seg_a (cap_l c)) (seg_b (cap_l c))) d).
  Definition Capsule_MinimalEnclosingOBB c : obb T :=
    let axis0 := Capsule_UpDirection c in
    let '(axis1, axis2) := PerpendicularBasis axis0 in
    Obb (Capsule_Center c) (V3 (Capsule_Height c * nhalf) (cap_r c) (cap_r c)) axis0 axis1 axis2.
  (** Capsule.cpp:236-245 [Translate], [Translated], 247-252 [Scale], 254-281 [Transform] (the float4x4 form does the same as the
      float3x4 one). *)
  Definition Capsule_Translate c v : capsule T := Cap (Seg_Translate (cap_l c) v) (cap_r c).
  Definition Capsule_Scale c (centerPoint : vec T) (scaleFactor : T) : capsule T :=
    let tm := ScaleAbout34 (V3 scaleFactor scaleFactor scaleFactor) centerPoint in
    Cap (Seg_Transform34 (cap_l c) tm) (cap_r c * scaleFactor).
  Definition Capsule_Transform3 c (m : mat3 T) : capsule T := Cap (Seg_Transform3 (cap_l c) m) (cap_r c * Length (col0 m)).
  Definition Capsule_Transform34 c (m : mat34 T) : capsule T := Cap (Seg_Transform34 (cap_l c) m) (cap_r c * Length (col0 (lin34 m))).
  Definition Capsule_TransformQuat c (q : quat T) : capsule T :=
    Cap (Seg (mulv (FromQuat q) (seg_a (cap_l c))) (mulv (FromQuat q) (seg_b (cap_l c)))) (cap_r c).
  (** Capsule.cpp:283-290 [ClosestPoint], 292-310 [Distance]. *)
  Definition Capsule_ClosestPoint c (targetPoint : vec T) : vec T :=
    let ptOnLine := fst (Seg_ClosestPoint (cap_l c) targetPoint) in
    if DistanceSq ptOnLine targetPoint <=? cap_r c * cap_r c then targetPoint
    else vadd ptOnLine (ScaledToLength (vsub targetPoint ptOnLine) (cap_r c)).
  Definition Capsule_Distance c p : T := Max n0 (fst (Seg_Distance (cap_l c) p) - cap_r c).
  Definition Capsule_DistanceCapsule c (o : capsule T) : T :=
    Max n0 (fst (fst (Seg_DistanceSeg (cap_l c) (cap_l o))) - cap_r c - cap_r o).
  Definition Capsule_DistanceSphere c (o : sphere T) : T := Max n0 (Capsule_Distance c (spos o) - srad o).
  (** Capsule.cpp:327-385 [Contains]. *)
  Definition Capsule_Contains c p : bool := fst (Seg_Distance (cap_l c) p) <=? cap_r c.
  Definition Capsule_ContainsSeg c (s : segment T) : bool := Capsule_Contains c (seg_a s) && Capsule_Contains c (seg_b s).
  Definition Capsule_ContainsTri c (t : triangle T) : bool :=
    Capsule_Contains c (tri_a t) && Capsule_Contains c (tri_b t) && Capsule_Contains c (tri_c t).
  Definition Capsule_ContainsAABB c (b : aabb T) : bool := forallb (fun i => Capsule_Contains c (AABB_CornerPoint b i)) (seq 0 8).
  Definition Capsule_ContainsVertices c (vertices : list (vec T)) : bool := forallb (Capsule_Contains c) vertices.
  (** Capsule.cpp:387-405, 418-436 [Intersects]. *)
  Definition Capsule_IntersectsRay c (o : ray T) : bool := fst (fst (Seg_DistanceRay (cap_l c) o)) <=? cap_r c.
  Definition Capsule_IntersectsLine c (o : line T) : bool := fst (fst (Seg_DistanceLine (cap_l c) o)) <=? cap_r c.
  Definition Capsule_IntersectsSeg c (o : segment T) : bool := fst (fst (Seg_DistanceSeg (cap_l c) o)) <=? cap_r c.
  Definition Capsule_IntersectsPlane c (o : plane T) : bool := Plane_DistanceSeg o (cap_l c) <=? cap_r c.
  Definition Capsule_IntersectsSphere c (o : sphere T) : bool :=
    let R := cap_r c + srad o in Seg_DistanceSq (cap_l c) (spos o) <=? R * R.
  Definition Capsule_IntersectsCapsule c (o : capsule T) : bool :=
    let R := cap_r c + cap_r o in Seg_DistanceSqSeg (cap_l c) (cap_l o) <=? R * R.
  Definition Capsule_IntersectsTri c (t : triangle T) : bool :=
    let '(trianglePoint, thisPoint) := Tri_ClosestPointSeg t (cap_l c) in DistanceSq thisPoint trianglePoint <=? cap_r c * cap_r c.
End Capsule.

Section CapsuleTrig.
  Context {T : Type} `{TT : NumTrig T}.
  Local Open Scope num_scope.
  (** Capsule.cpp:174-178 [PointInside]; 229-234 [RandomPointOnSurface], from the two draws [rng.Float()] makes. *)
  Definition Capsule_PointInside (c : capsule T) (height angle dist : T) : vec T :=
    Circle_GetPointDist (Capsule_CrossSection c height) (angle * n2 * npi) dist.
  Definition Capsule_RandomPointOnSurface (c : capsule T) (f1 f2 : T) : vec T := Capsule_PointInside c f1 f2 n1.
End CapsuleTrig.
