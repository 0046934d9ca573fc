(** Oriented bounding box (/repo/src/Geometry/OBB.h, OBB.cpp), scalar build.

    Not modelled: [OptimalEnclosingOBB] and the [Brute*EnclosingOBB] searches (they work on a Polyhedron; the pure tests they
    call are modelled below), [SmallestOBBVolume*] and the flat branch of [OptimalEnclosingOBB] (see PlanarObbModel.v), [ToPolyhedron] (see ToHedModel.v), [ToPBVolume],
    [Triangulate], the vertex buffer functions, [IsFinite], strings, and [Intersects] with Capsule, Polygon, Frustum and
    Polyhedron (forwarded).  [Contains] of Polygon, Frustum and Polyhedron test a list of corner points: [OBB_ContainsVertices]. *)
From Coq Require Import ZArith Bool List.
From Verif Require Import Num ScalarModel Vec3Model GeoTypes MatModel AabbModel LineModel RotModel PlaneModel SphereModel TriangleModel SatModel CircleModel CapsuleModel.
Import ListNotations.

Section Obb.
  Context {T : Type} `{NT : Num T}.
  Local Open Scope num_scope.
  Implicit Types (o : obb T) (p v : vec T).

  (** OBB.cpp:101-108 [SetFrom(AABB)] (also AABB.cpp:150-153 [ToOBB]), 158-165 [SetFrom(Sphere)]. *)
  Definition OBB_FromAABB (b : aabb T) : obb T :=
    Obb (AABB_CenterPoint b) (AABB_HalfSize b) (V3 n1 n0 n0) (V3 n0 n1 n0) (V3 n0 n0 n1).
  Definition OBB_FromSphere (s : sphere T) : obb T :=
    Obb (spos s) (V3 (srad s) (srad s) (srad s)) (V3 n1 n0 n0) (V3 n0 n1 n0) (V3 n0 n0 n1).
  (** OBB.cpp:110-134 [OBBSetFrom]; 136-156 [SetFrom(AABB, float3x3/float3x4/Quat)] (a float4x4 uses its float3x4 part), AABB.cpp:540-566 [Transform]. *)
  Definition OBBSetFrom (b : aabb T) (m : mat3 T) (mulpos : vec T -> vec T) : obb T :=
    let pos := mulpos (AABB_CenterPoint b) in
    let r := AABB_HalfSize b in
    let matrixScale := LengthSq (col0 m) in
    let matrixScale := nsqrt matrixScale in
    let r := vmuls r matrixScale in
    let matrixScale := n1 / matrixScale in
    let '(a0, a1, a2) := Orthonormalize3 (vmuls (col0 m) matrixScale) (vmuls (col1 m) matrixScale) (vmuls (col2 m) matrixScale) in
    Obb pos r a0 a1 a2.
  Definition OBB_SetFrom3 (b : aabb T) (m : mat3 T) : obb T := OBBSetFrom b m (mulv m).
  Definition OBB_SetFrom34 (b : aabb T) (m : mat34 T) : obb T := OBBSetFrom b (lin34 m) (mulpos34 m).
  Definition OBB_SetFromQuat (b : aabb T) (q : quat T) : obb T := OBB_SetFrom3 b (FromQuat q).
  (** OBB.cpp:2204-2222 [Size], [HalfSize], [Diagonal], [HalfDiagonal]; 224-229 [MinimalEnclosingAABB], 245-259 [MinimalEnclosingSphere],
      [MaximalContainedSphere], 266-269 [IsDegenerate], 271-274 [CenterPoint]. *)
  Definition OBB_Size o : vec T := vmuls (orad o) n2.
  Definition OBB_HalfDiagonal o : vec T :=
    vadd (vadd (vmuls (oaxis0 o) (vx (orad o))) (vmuls (oaxis1 o) (vy (orad o)))) (vmuls (oaxis2 o) (vz (orad o))).
  Definition OBB_Diagonal o : vec T := smulv n2 (OBB_HalfDiagonal o).
  Definition OBB_MinimalEnclosingAABB o : aabb T := AABB_FromOBB o.
  Definition OBB_MinimalEnclosingSphere o : sphere T := Sph (opos o) (Length (OBB_HalfDiagonal o)).
  Definition OBB_MaximalContainedSphere o : sphere T := Sph (opos o) (MinElement (orad o)).
  Definition OBB_IsDegenerate o : bool := negb ((vx (orad o) >? n0) && (vy (orad o) >? n0) && (vz (orad o) >? n0)).
  (** OBB.cpp:276-285 [PointInside]; 2301-2307 [RandomPointInside] passes three random numbers. *)
  Definition OBB_PointInside o (x y z : T) : vec T :=
    let r := orad o in
    vadd (vadd (vadd (opos o) (vmuls (oaxis0 o) (n2 * vx r * x - vx r))) (vmuls (oaxis1 o) (n2 * vy r * y - vy r)))
         (vmuls (oaxis2 o) (n2 * vz r * z - vz r)).
  (** OBB.cpp:308-323 [CornerPoint], 447-452 [GetCornerPoints]. *)
  Definition OBB_CornerPoint o (i : nat) : vec T :=
    let r := orad o in
    let x := smulv (vx r) (oaxis0 o) in let y := smulv (vy r) (oaxis1 o) in let z := smulv (vz r) (oaxis2 o) in
    let p := opos o in
    match i with
    | 1%nat => vadd (vsub (vsub p x) y) z
    | 2%nat => vsub (vadd (vsub p x) y) z
    | 3%nat => vadd (vadd (vsub p x) y) z
    | 4%nat => vsub (vsub (vadd p x) y) z
    | 5%nat => vadd (vsub (vadd p x) y) z
    | 6%nat => vsub (vadd (vadd p x) y) z
    | 7%nat => vadd (vadd (vadd p x) y) z
    | _ => vsub (vsub (vsub p x) y) z
    end.
  Definition OBB_GetCornerPoints o : list (vec T) := map (OBB_CornerPoint o) (seq 0 8).
  (** OBB.cpp:287-306 [Edge], 2518-2529 [ToEdgeList]. *)
  Definition OBB_Edge o (i : nat) : segment T :=
    let c := OBB_CornerPoint o in
    match i with
    | 1%nat => Seg (c 0%nat) (c 2%nat)
    | 2%nat => Seg (c 0%nat) (c 4%nat)
    | 3%nat => Seg (c 1%nat) (c 3%nat)
    | 4%nat => Seg (c 1%nat) (c 5%nat)
    | 5%nat => Seg (c 2%nat) (c 3%nat)
    | 6%nat => Seg (c 2%nat) (c 6%nat)
    | 7%nat => Seg (c 3%nat) (c 7%nat)
    | 8%nat => Seg (c 4%nat) (c 5%nat)
    | 9%nat => Seg (c 4%nat) (c 6%nat)
    | 10%nat => Seg (c 5%nat) (c 7%nat)
    | 11%nat => Seg (c 6%nat) (c 7%nat)
    | _ => Seg (c 0%nat) (c 1%nat)
    end.
  Definition OBB_ToEdgeList o : list (vec T) := flat_map (fun i => [seg_a (OBB_Edge o i); seg_b (OBB_Edge o i)]) (seq 0 12).
  (** OBB.cpp:325-339 [ExtremePoint], 341-349 [ProjectToAxis], 351-365 [UniqueFaceNormals], [UniqueEdgeDirections]. *)
  Definition OBB_ExtremePoint o (direction : vec T) : vec T :=
    let r := orad o in
    let pt := opos o in
    let pt := vadd pt (vmuls (oaxis0 o) (if n0 <=? Dot direction (oaxis0 o) then vx r else - vx r)) in
    let pt := vadd pt (vmuls (oaxis1 o) (if n0 <=? Dot direction (oaxis1 o) then vy r else - vy r)) in
    vadd pt (vmuls (oaxis2 o) (if n0 <=? Dot direction (oaxis2 o) then vz r else - vz r)).
  Definition OBB_ExtremePointDist o (direction : vec T) : vec T * T :=
    let e := OBB_ExtremePoint o direction in (e, Dot e direction).
  Definition OBB_ProjectToAxis o (direction : vec T) : T * T :=
    let x := Abs (Dot direction (oaxis0 o) * vx (orad o)) in
    let y := Abs (Dot direction (oaxis1 o) * vy (orad o)) in
    let z := Abs (Dot direction (oaxis2 o) * vz (orad o)) in
    let pt := Dot direction (opos o) in
    (pt - x - y - z, pt + x + y + z).
  Definition OBB_shape o : shape := Shape [oaxis0 o; oaxis1 o; oaxis2 o] [oaxis0 o; oaxis1 o; oaxis2 o] (OBB_ProjectToAxis o).
  (** OBB.cpp:367-392 [PointOnEdge]; 2317-2322 [RandomPointOnEdge] passes a random edge and number. *)
  Definition OBB_PointOnEdge o (i : nat) (u : T) : vec T :=
    let r := orad o in let pos := opos o in
    let x := smulv (vx r) (oaxis0 o) in let y := smulv (vy r) (oaxis1 o) in let z := smulv (vz r) (oaxis2 o) in
    let d0 := vmuls (vmuls (oaxis0 o) (n2 * u - n1)) (vx r) in
    let d1 := vmuls (vmuls (oaxis1 o) (n2 * u - n1)) (vy r) in
    let d2 := vmuls (vmuls (oaxis2 o) (n2 * u - n1)) (vz r) in
    match i with
    | 1%nat => vadd (vadd (vsub pos y) z) d0
    | 2%nat => vadd (vsub (vadd pos y) z) d0
    | 3%nat => vadd (vadd (vadd pos y) z) d0
    | 4%nat => vadd (vsub (vsub pos x) z) d1
    | 5%nat => vadd (vadd (vsub pos x) z) d1
    | 6%nat => vadd (vsub (vadd pos x) z) d1
    | 7%nat => vadd (vadd (vadd pos x) z) d1
    | 8%nat => vadd (vsub (vsub pos x) y) d2
    | 9%nat => vadd (vadd (vsub pos x) y) d2
    | 10%nat => vadd (vsub (vadd pos x) y) d2
    | 11%nat => vadd (vadd (vadd pos x) y) d2
    | _ => vadd (vsub (vsub pos y) z) d0
    end.
  (** OBB.cpp:394-408 [FaceCenterPoint], 410-430 [FacePoint], 432-445 [FacePlane], 454-459 [GetFacePlanes]; 2309-2315 [RandomPointOnSurface]. *)
  Definition OBB_FaceCenterPoint o (i : nat) : vec T :=
    let r := orad o in
    match i with
    | 1%nat => vadd (opos o) (smulv (vx r) (oaxis0 o))
    | 2%nat => vsub (opos o) (smulv (vy r) (oaxis1 o))
    | 3%nat => vadd (opos o) (smulv (vy r) (oaxis1 o))
    | 4%nat => vsub (opos o) (smulv (vz r) (oaxis2 o))
    | 5%nat => vadd (opos o) (smulv (vz r) (oaxis2 o))
    | _ => vsub (opos o) (smulv (vx r) (oaxis0 o))
    end.
  Definition OBB_FacePoint o (i : nat) (u v : T) : vec T :=
    let r := orad o in let pos := opos o in
    let x := smulv (vx r) (oaxis0 o) in let y := smulv (vy r) (oaxis1 o) in let z := smulv (vz r) (oaxis2 o) in
    let along0 w := vmuls (vmuls (oaxis0 o) (n2 * w - n1)) (vx r) in
    let along1 w := vmuls (vmuls (oaxis1 o) (n2 * w - n1)) (vy r) in
    let along2 w := vmuls (vmuls (oaxis2 o) (n2 * w - n1)) (vz r) in
    match i with
    | 1%nat => vadd (vadd (vadd pos z) (along0 u)) (along1 v)
    | 2%nat => vadd (vadd (vsub pos x) (along1 u)) (along2 v)
    | 3%nat => vadd (vadd (vadd pos x) (along1 u)) (along2 v)
    | 4%nat => vadd (vadd (vsub pos y) (along2 u)) (along0 v)
    | 5%nat => vadd (vadd (vadd pos y) (along2 u)) (along0 v)
    | _ => vadd (vadd (vsub pos z) (along0 u)) (along1 v)
    end.
  Definition OBB_FacePlane o (i : nat) : plane T :=
    let c := OBB_FaceCenterPoint o in
    match i with
    | 1%nat => Plane_Set (c 1%nat) (oaxis0 o)
    | 2%nat => Plane_Set (c 2%nat) (vneg (oaxis1 o))
    | 3%nat => Plane_Set (c 3%nat) (oaxis1 o)
    | 4%nat => Plane_Set (c 4%nat) (vneg (oaxis2 o))
    | 5%nat => Plane_Set (c 5%nat) (oaxis2 o)
    | _ => Plane_Set (c 0%nat) (vneg (oaxis0 o))
    end.
  (** OBB.cpp:2224-2262 [WorldToLocal], [LocalToWorld] (a corner of the box becomes the origin). *)
  Definition OBB_LocalToWorld o : mat34 T :=
    let a := oaxis0 o in let b := oaxis1 o in let c := oaxis2 o in
    let p := vsub (vsub (vsub (opos o) (vmuls a (vx (orad o)))) (vmuls b (vy (orad o)))) (vmuls c (vz (orad o))) in
    M34 (M3 (V3 (vx a) (vx b) (vx c)) (V3 (vy a) (vy b) (vy c)) (V3 (vz a) (vz b) (vz c))) p.
  Definition OBB_WorldToLocal o : mat34 T := InverseOrthonormal34 (OBB_LocalToWorld o).
  (** The box in its own coordinates, as in OBB.cpp:2726 and the other intersection tests. *)
  Definition OBB_LocalBox o : aabb T := Box (V3 n0 n0 n0) (OBB_Size o).
  (** OBB.cpp:2265-2287 [ClosestPoint], 2289-2299 [Volume], [SurfaceArea], 2381-2392 [Distance]. *)
  Definition OBB_ClosestPoint o (targetPoint : vec T) : vec T :=
    let d := vsub targetPoint (opos o) in let r := orad o in
    let c := opos o in
    let c := vadd c (smulv (Clamp (Dot d (oaxis0 o)) (- vx r) (vx r)) (oaxis0 o)) in
    let c := vadd c (smulv (Clamp (Dot d (oaxis1 o)) (- vy r) (vy r)) (oaxis1 o)) in
    vadd c (smulv (Clamp (Dot d (oaxis2 o)) (- vz r) (vz r)) (oaxis2 o)).
  Definition OBB_Volume o : T := let s := OBB_Size o in vx s * vy s * vz s.
  Definition OBB_SurfaceArea o : T := let s := OBB_Size o in n2 * (vx s * vy s + vx s * vz s + vy s * vz s).
  Definition OBB_Distance o p : T := Distance p (OBB_ClosestPoint o p).
  Definition OBB_DistanceSphere o (s : sphere T) : T := Max n0 (OBB_Distance o (spos s) - srad s).
  (** OBB.cpp:2329-2332 [Translate], 2334-2344 [Scale], 2346-2379 [OBBTransform] and its four uses (float4x4 as float3x4). *)
  Definition OBB_Translate o (offset : vec T) : obb T := Obb (vadd (opos o) offset) (orad o) (oaxis0 o) (oaxis1 o) (oaxis2 o).
  Definition OBBTransform o (mulpos muldir : vec T -> vec T) : obb T :=
    let '(a0, rx) := Normalize (muldir (smulv (vx (orad o)) (oaxis0 o))) in
    let '(a1, ry) := Normalize (muldir (smulv (vy (orad o)) (oaxis1 o))) in
    let '(a2, rz) := Normalize (muldir (smulv (vz (orad o)) (oaxis2 o))) in
    Obb (mulpos (opos o)) (V3 rx ry rz) a0 a1 a2.
  Definition OBB_Transform3 o (m : mat3 T) : obb T := OBBTransform o (mulv m) (mulv m).
  Definition OBB_Transform34 o (m : mat34 T) : obb T := OBBTransform o (mulpos34 m) (muldir34 m).
  Definition OBB_TransformQuat o (q : quat T) : obb T := OBB_Transform3 o (FromQuat q).
  Definition OBB_Scale o (centerPoint scaleFactor : vec T) : obb T := OBB_Transform34 o (ScaleAbout34 scaleFactor centerPoint).
  (** OBB.cpp:2394-2475 [Contains]. *)
  Definition OBB_Contains o p : bool :=
    let pt := vsub p (opos o) in
    (Abs (Dot pt (oaxis0 o)) <=? vx (orad o)) && (Abs (Dot pt (oaxis1 o)) <=? vy (orad o)) && (Abs (Dot pt (oaxis2 o)) <=? vz (orad o)).
  Definition OBB_ContainsVertices o (pts : list (vec T)) : bool := forallb (OBB_Contains o) pts.
  Definition OBB_ContainsSeg o (s : segment T) : bool := OBB_Contains o (seg_a s) && OBB_Contains o (seg_b s).
  Definition OBB_ContainsAABB o (b : aabb T) : bool := OBB_ContainsVertices o (map (AABB_CornerPoint b) (seq 0 8)).
  Definition OBB_ContainsOBB o (q : obb T) : bool := OBB_ContainsVertices o (OBB_GetCornerPoints q).
  Definition OBB_ContainsTri o (t : triangle T) : bool := OBB_Contains o (tri_a t) && OBB_Contains o (tri_b t) && OBB_Contains o (tri_c t).
  (** AABB.cpp:641-644, Sphere.cpp:214-221, Capsule.cpp:359-366 [Contains(OBB)]. *)
  Definition AABB_ContainsOBB (b : aabb T) o : bool := AABB_ContainsAABB b (OBB_MinimalEnclosingAABB o).
  Definition Sphere_ContainsOBB (s : sphere T) o : bool := forallb (fun p => Sphere_Contains s p) (OBB_GetCornerPoints o).
  Definition Capsule_ContainsOBB (c : capsule T) o : bool := Capsule_ContainsVertices c (OBB_GetCornerPoints o).
  (** Sphere.cpp:752-757 [Enclose(OBB)]. *)
  Definition Sphere_EncloseOBB (s : sphere T) o : sphere T := Sphere_EnclosePts s (OBB_GetCornerPoints o).
  (** OBB.cpp:2483-2506 [Enclose]: one pass of the loop for axis [axis] with half size [r], at position [pos]; returns the new position and half size. *)
  Definition OBB_encloseAxis (axis point pos : vec T) (r : T) : vec T * T :=
    let dist := Dot (vsub point pos) axis in
    let distanceFromOBB := Abs dist - r in
    if distanceFromOBB >? n0 then
      let shift := vmuls (vmuls axis distanceFromOBB) nhalf in
      (if dist >? n0 then vadd pos shift else vsub pos shift, r + distanceFromOBB * nhalf)
    else (pos, r).
  Definition OBB_Enclose o (point : vec T) : obb T :=
    let '(pos, rx) := OBB_encloseAxis (oaxis0 o) point (opos o) (vx (orad o)) in
    let '(pos, ry) := OBB_encloseAxis (oaxis1 o) point pos (vy (orad o)) in
    let '(pos, rz) := OBB_encloseAxis (oaxis2 o) point pos (vz (orad o)) in
    Obb pos (V3 rx ry rz) (oaxis0 o) (oaxis1 o) (oaxis2 o).
  (** OBB.cpp:2531-2710 [Intersects(OBB, epsilon)]: the matrix [R] and [AbsR] as functions of two indices. *)
  Definition OBB_IntersectsOBB_eps o (b : obb T) (epsilon : T) : bool :=
    let R00 := Dot (oaxis0 o) (oaxis0 b) in let R01 := Dot (oaxis0 o) (oaxis1 b) in let R02 := Dot (oaxis0 o) (oaxis2 b) in
    let R10 := Dot (oaxis1 o) (oaxis0 b) in let R11 := Dot (oaxis1 o) (oaxis1 b) in let R12 := Dot (oaxis1 o) (oaxis2 b) in
    let R20 := Dot (oaxis2 o) (oaxis0 b) in let R21 := Dot (oaxis2 o) (oaxis1 b) in let R22 := Dot (oaxis2 o) (oaxis2 b) in
    let t := vsub (opos b) (opos o) in
    let tx := Dot t (oaxis0 o) in let ty := Dot t (oaxis1 o) in let tz := Dot t (oaxis2 o) in
    let A00 := Abs R00 + epsilon in let A01 := Abs R01 + epsilon in let A02 := Abs R02 + epsilon in
    let A10 := Abs R10 + epsilon in let A11 := Abs R11 + epsilon in let A12 := Abs R12 + epsilon in
    let A20 := Abs R20 + epsilon in let A21 := Abs R21 + epsilon in let A22 := Abs R22 + epsilon in
    let x := vx (orad o) in let y := vy (orad o) in let z := vz (orad o) in
    let bx := vx (orad b) in let by_ := vy (orad b) in let bz := vz (orad b) in
    let apart d ra rb := Abs d >? ra + rb in
    if apart tx x (bx * A00 + by_ * A01 + bz * A02) then false else
    if apart ty y (bx * A10 + by_ * A11 + bz * A12) then false else
    if apart tz z (bx * A20 + by_ * A21 + bz * A22) then false else
    if apart (tx * R00 + ty * R10 + tz * R20) (x * A00 + y * A10 + z * A20) bx then false else
    if apart (tx * R01 + ty * R11 + tz * R21) (x * A01 + y * A11 + z * A21) by_ then false else
    if apart (tx * R02 + ty * R12 + tz * R22) (x * A02 + y * A12 + z * A22) bz then false else
    if apart (tz * R10 - ty * R20) (y * A20 + z * A10) (by_ * A02 + bz * A01) then false else
    if apart (tz * R11 - ty * R21) (y * A21 + z * A11) (bx * A02 + bz * A00) then false else
    if apart (tz * R12 - ty * R22) (y * A22 + z * A12) (bx * A01 + by_ * A00) then false else
    if apart (tx * R20 - tz * R00) (x * A20 + z * A00) (by_ * A12 + bz * A11) then false else
    if apart (tx * R21 - tz * R01) (x * A21 + z * A01) (bx * A12 + bz * A10) then false else
    if apart (tx * R22 - tz * R02) (x * A22 + z * A02) (bx * A11 + by_ * A10) then false else
    if apart (ty * R00 - tx * R10) (x * A10 + y * A00) (by_ * A22 + bz * A21) then false else
    if apart (ty * R01 - tx * R11) (x * A11 + y * A01) (bx * A22 + bz * A20) then false else
    negb (apart (ty * R02 - tx * R12) (x * A12 + y * A02) (bx * A21 + by_ * A20)).
  (** OBB.h:437 the default epsilon; OBB.cpp:2478-2481 [Intersects(AABB)], AABB.cpp:971-974 [AABB::Intersects(OBB)]. *)
  Definition OBB_IntersectsOBB o (b : obb T) : bool := OBB_IntersectsOBB_eps o b (nlit 1 1000).
  Definition OBB_IntersectsAABB o (b : aabb T) : bool := OBB_IntersectsOBB o (OBB_FromAABB b).
  (** OBB.cpp:2713-2722 [Intersects(Plane)]. *)
  Definition OBB_IntersectsPlane o (P : plane T) : bool :=
    let t := vx (orad o) * Abs (Dot (pnormal P) (oaxis0 o)) + vy (orad o) * Abs (Dot (pnormal P) (oaxis1 o)) + vz (orad o) * Abs (Dot (pnormal P) (oaxis2 o)) in
    let s := Dot (pnormal P) (opos o) - pd P in
    Abs s <=? t.
  (** OBB.cpp:2724-2765 [Intersects(Ray/Line/LineSegment)] with the returned range, Ray.cpp:424-428 (the ray direction is normalized after
      the transform), Line.cpp:344-347, LineSegment.cpp:440-443. *)
  Definition OBB_IntersectsRay o (r : ray T) : bool * ext T * ext T :=
    let m := OBB_WorldToLocal o in AABB_IntersectsRay (OBB_LocalBox o) (Ry (mulpos34 m (rpos r)) (Normalized (muldir34 m (rdir r)))).
  Definition OBB_IntersectsLine o (l : line T) : bool * ext T * ext T :=
    let m := OBB_WorldToLocal o in AABB_IntersectsLine (OBB_LocalBox o) (Ln (mulpos34 m (lpos l)) (muldir34 m (ldir l))).
  Definition OBB_IntersectsSeg o (s : segment T) : bool * ext T * ext T :=
    let m := OBB_WorldToLocal o in AABB_IntersectsSegment (OBB_LocalBox o) (Seg (mulpos34 m (seg_a s)) (mulpos34 m (seg_b s))).
  (** OBB.cpp:2767-2777 [Intersects(Sphere)], 2784-2789 [Intersects(Triangle)]. *)
  Definition OBB_IntersectsSphere o (s : sphere T) : bool := DistanceSq (OBB_ClosestPoint o (spos s)) (spos s) <=? srad s * srad s.
  Definition OBB_IntersectsTri o (t : triangle T) : bool := Tri_IntersectsAABB (Tri_Transform34 t (OBB_WorldToLocal o)) (OBB_LocalBox o).
  (** Plane.cpp:245 [SignedDistance(OBB)] (the template of Plane.cpp:229-240 over the projection), 689-692 forwards to [Intersects(Plane)]. *)
  Definition Plane_SignedDistanceOBB (P : plane T) o : T := Plane_SignedDistanceRange P (OBB_ProjectToAxis o (pnormal P)).

  (** ** Enclosing boxes of point sets *)
  (** OBB.cpp:462-484 [ExtremePointsAlongDirection]: the indices of the first smallest and first largest projection, with these projections.
      For an empty array the code returns indices 0 and infinities: [None].  The code starts from infinities, which for finite projections
      is the same as starting from the first point. *)
  Definition OBB_ExtremePointsAlongDirection (dir : vec T) (pts : list (vec T)) : option (nat * nat * T * T) :=
    match pts with
    | [] => None
    | p :: rest =>
        Some (snd (fold_left (fun acc q =>
          let '(i, (is_, il, sd, ld)) := acc in
          let d := Dot q dir in
          let '(is_, sd) := if d <? sd then (i, d) else (is_, sd) in
          let '(il, ld) := if d >? ld then (i, d) else (il, ld) in
          (S i, (is_, il, sd, ld))) rest (1%nat, (0%nat, 0%nat, Dot p dir, Dot p dir))))
    end.
  (** OBB.cpp:1970-1996 [FixedOrientationEnclosingOBB]; [None] for no points (the code computes with infinities). *)
  Definition OBB_FixedOrientationEnclosingOBB (pts : list (vec T)) (dir0 dir1 : vec T) : option (obb T) :=
    let edgeC := Normalized (Cross dir0 dir1) in
    match OBB_ExtremePointsAlongDirection dir0 pts, OBB_ExtremePointsAlongDirection dir1 pts, OBB_ExtremePointsAlongDirection edgeC pts with
    | Some (_, _, mind0, maxd0), Some (_, _, mind1, maxd1), Some (_, _, mind2, maxd2) =>
        let rd0 := (maxd0 - mind0) * nhalf in
        let rd1 := (maxd1 - mind1) * nhalf in
        let rd2 := (maxd2 - mind2) * nhalf in
        let pos := vadd (vadd (smulv (mind0 + rd0) dir0) (smulv (mind1 + rd1) dir1)) (smulv (mind2 + rd2) edgeC) in
        Some (Obb pos (V3 rd0 rd1 rd2) dir0 dir1 edgeC)
    | _, _, _ => None
    end.
  (** OBB.cpp:731-766 [AreEdgesCompatibleForOBB] (the four-argument Min and Max of MathFunc.h). *)
  Definition AreEdgesCompatibleForOBB (f1a f1b f2a f2b : vec T) : bool :=
    let f1a_f1b := vsub f1a f1b in
    let f2a_f2b := vsub f2a f2b in
    let a := Dot f1b f2b in
    let b := Dot f1a_f1b f2b in
    let c := Dot f2a_f2b f1b in
    let d := Dot f1a_f1b f2a_f2b in
    let ab := a + b in
    let ac := a + c in
    let abcd := ab + c + d in
    let minVal := Min (Min a ab) (Min ac abcd) in
    let maxVal := Max (Max a ab) (Max ac abcd) in
    (minVal <=? n0) && (n0 <=? maxVal).
  (** OBB.cpp:796-833 [AreCompatibleOpposingEdges]: [Some outN] when it returns true. *)
  Definition AreCompatibleOpposingEdges (f1a f1b f2a f2b : vec T) : option (vec T) :=
    let c0 := f2b in let c1 := vsub f1a f1b in let c2 := vsub f2a f2b in
    let A := M3 (V3 (vx c0) (vx c1) (vx c2)) (V3 (vy c0) (vy c1) (vy c2)) (V3 (vz c0) (vz c1) (vz c2)) in
    match SolveAxb A (vneg f1b) with
    | None => None
    | Some s =>
        let c := vx s in let t := vy s in let cu := vz s in
        if (c <=? n0) || (t <? n0) || (t >? n1) then None
        else
          let u := cu / c in
          let eps := nlit 1 10000 in
          if (t <? eps) || (t >? n1 - eps) || (u <? eps) || (u >? n1 - eps) then None
          else if (cu <? n0) || (cu >? c) then None
          else Some (vadd f1b (vmuls (vsub f1a f1b) t))
    end.
  (** OBB.cpp:902-955 [IsVertexAntipodalToEdge], given the vertex and its neighbours' positions. *)
  Fixpoint antipodalLoop (v f1b f1b_f1a : vec T) (neighbors : list (vec T)) (tMin tMax : T) : bool :=
    match neighbors with
    | [] => true
    | w :: rest =>
        let e := vsub w v in
        let s := Dot f1b_f1a e in
        let n := Dot f1b e in
        let epsilon := nlit 1 10000 in
        if s >? epsilon then
          let tMax := Min tMax (n / s) in
          if tMax - tMin <? - nlit 5 100 then false else antipodalLoop v f1b f1b_f1a rest tMin tMax
        else if s <? - epsilon then
          let tMin := Max tMin (n / s) in
          if tMax - tMin <? - nlit 5 100 then false else antipodalLoop v f1b f1b_f1a rest tMin tMax
        else if n <? - epsilon then false
        else if tMax - tMin <? - nlit 5 100 then false else antipodalLoop v f1b f1b_f1a rest tMin tMax
    end.
  Definition IsVertexAntipodalToEdge (v : vec T) (neighbors : list (vec T)) (f1a f1b : vec T) : bool :=
    antipodalLoop v f1b (vsub f1b f1a) neighbors n0 n1.

  (** Circle.cpp:233-252 [IntersectsFaces]: the points of the circle on the planes of the faces that the box contains (Circle.cpp:204-207
      [Intersects(Plane)] forwards to Plane.cpp:711-745). *)
  Definition Circle_IntersectsFaces (c : circle T) o : list (vec T) :=
    flat_map (fun i => filter (OBB_Contains o) (Plane_IntersectsCircle (OBB_FacePlane o i) c)) (seq 0 6).
End Obb.

(** OBB.cpp:880-900 [SortedArrayContains] (no callers): reads outside the array are [Fault], running out of fuel [Timeout].
    [left] and [right] are 64-bit unsigned and are assigned the searched value itself. *)
Inductive search_result := Found (b : bool) | Fault | Timeout.
Fixpoint sortedLoop (fuel : nat) (arr : list Z) (i : Z) (left right : Z) : search_result :=
  match fuel with
  | O => Timeout
  | S fuel =>
      if (left <? right)%Z then
        let middle := Z.shiftr (left + right + 1) 1 in
        match nth_error arr (Z.to_nat middle) with
        | None => Fault
        | Some x =>
            if (x <? i)%Z then sortedLoop fuel arr i (i mod 2 ^ 64) right
            else if (i <? x)%Z then sortedLoop fuel arr i left (i mod 2 ^ 64)
            else Found true
        end
      else Found false
  end.
Definition SortedArrayContains (fuel : nat) (arr : list Z) (i : Z) : search_result :=
  match arr with
  | [] => Fault
  | x :: _ =>
      let right := (Z.of_nat (length arr) - 1)%Z in
      let y := last arr 0%Z in
      if (x =? i)%Z || (y =? i)%Z then Found true
      else if (i <? x)%Z || (y <? i)%Z then Found false
      else sortedLoop fuel arr i 0 right
  end.
