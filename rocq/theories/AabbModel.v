(** Model of AABB (/repo/src/Geometry/AABB.cpp, AABB.h). *)
From Coq Require Import ZArith Bool List.
From Verif Require Import Num ScalarModel Vec3Model GeoTypes.
Import ListNotations.

Section Aabb.
  Context {T : Type} `{NT : Num T}.
  Open Scope num_scope.

  (** AABB.cpp:74-79 [SetFromCenterAndSize], 81-85 [SetFrom(OBB)], 87-92 [SetFrom(Sphere)]. *)
  Definition AABB_SetFromCenterAndSize (center size : vec T) : aabb T :=
    let halfSize := smulv nhalf size in Box (vsub center halfSize) (vadd center halfSize).
  Definition AABB_FromOBB (o : obb T) : aabb T :=
    let halfSize := vadd (vadd (vAbs (vmuls (oaxis0 o) (vx (orad o)))) (vAbs (vmuls (oaxis1 o) (vy (orad o)))))
                         (vAbs (vmuls (oaxis2 o) (vz (orad o)))) in
    AABB_SetFromCenterAndSize (opos o) (smulv n2 halfSize).
  Definition AABB_FromSphere (s : sphere T) : aabb T :=
    let d := FromScalar (srad s) in Box (vsub (spos s) d) (vadd (spos s) d).

  (** AABB.cpp:183-186 [CenterPoint], 392-400 [Size], [HalfSize], 155-158 [MinimalEnclosingSphere], 160-164
      [MaximalContainedSphere], 171-181 [IsDegenerate] (non-MSVC). *)
  Definition AABB_CenterPoint (b : aabb T) : vec T := vmuls (vadd (minPoint b) (maxPoint b)) nhalf.
  Definition AABB_Size (b : aabb T) : vec T := vsub (maxPoint b) (minPoint b).
  Definition AABB_HalfSize (b : aabb T) : vec T := vmuls (AABB_Size b) nhalf.
  Definition AABB_MinimalEnclosingSphere (b : aabb T) : sphere T :=
    Sph (AABB_CenterPoint b) (Length (AABB_Size b) * nhalf).
  Definition AABB_MaximalContainedSphere (b : aabb T) : sphere T :=
    let h := AABB_HalfSize b in Sph (AABB_CenterPoint b) (Min3 (vx h) (vy h) (vz h)).
  Definition AABB_IsDegenerate (b : aabb T) : bool :=
    negb ((vx (minPoint b) <? vx (maxPoint b)) && (vy (minPoint b) <? vy (maxPoint b)) && (vz (minPoint b) <? vz (maxPoint b))).
  (** AABB.cpp:402-406 [Volume], 408-412 [SurfaceArea]. *)
  Definition AABB_Volume (b : aabb T) : T := let sz := AABB_Size b in vx sz * vy sz * vz sz.
  Definition AABB_SurfaceArea (b : aabb T) : T :=
    let size := AABB_Size b in n2 * (vx size * vy size + vx size * vz size + vy size * vz size).

  (** AABB.cpp:188-196 [PointInside]. *)
  Definition AABB_PointInside (b : aabb T) (x y z : T) : vec T :=
    let d := vsub (maxPoint b) (minPoint b) in vadd (minPoint b) (vmul d (V3 x y z)).
  (** AABB.cpp:234-249 [CornerPoint]. *)
  Definition AABB_CornerPoint (b : aabb T) (i : nat) : vec T :=
    let mn := minPoint b in let mx := maxPoint b in
    match i with
    | 1%nat => V3 (vx mn) (vy mn) (vz mx)
    | 2%nat => V3 (vx mn) (vy mx) (vz mn)
    | 3%nat => V3 (vx mn) (vy mx) (vz mx)
    | 4%nat => V3 (vx mx) (vy mn) (vz mn)
    | 5%nat => V3 (vx mx) (vy mn) (vz mx)
    | 6%nat => V3 (vx mx) (vy mx) (vz mn)
    | 7%nat => mx
    | _ => mn
    end.
  (** AABB.cpp:198-232 [Edge]. *)
  Definition AABB_Edge (b : aabb T) (i : nat) : segment T :=
    let mn := minPoint b in let mx := maxPoint b in
    match i with
    | 1%nat => Seg mn (V3 (vx mn) (vy mx) (vz mn))
    | 2%nat => Seg mn (V3 (vx mx) (vy mn) (vz mn))
    | 3%nat => Seg (V3 (vx mn) (vy mn) (vz mx)) (V3 (vx mn) (vy mx) (vz mx))
    | 4%nat => Seg (V3 (vx mn) (vy mn) (vz mx)) (V3 (vx mx) (vy mn) (vz mx))
    | 5%nat => Seg (V3 (vx mn) (vy mx) (vz mn)) (V3 (vx mn) (vy mx) (vz mx))
    | 6%nat => Seg (V3 (vx mn) (vy mx) (vz mn)) (V3 (vx mx) (vy mx) (vz mn))
    | 7%nat => Seg (V3 (vx mn) (vy mx) (vz mx)) mx
    | 8%nat => Seg (V3 (vx mx) (vy mn) (vz mn)) (V3 (vx mx) (vy mn) (vz mx))
    | 9%nat => Seg (V3 (vx mx) (vy mn) (vz mn)) (V3 (vx mx) (vy mx) (vz mn))
    | 10%nat => Seg (V3 (vx mx) (vy mn) (vz mx)) mx
    | 11%nat => Seg (V3 (vx mx) (vy mx) (vz mn)) mx
    | _ => Seg mn (V3 (vx mn) (vy mn) (vz mx))
    end.
  (** AABB.cpp:251-256 [ExtremePoint]. *)
  Definition AABB_ExtremePoint (b : aabb T) (direction : vec T) : vec T :=
    V3 (if vx direction >=? n0 then vx (maxPoint b) else vx (minPoint b))
       (if vy direction >=? n0 then vy (maxPoint b) else vy (minPoint b))
       (if vz direction >=? n0 then vz (maxPoint b) else vz (minPoint b)).
  (** AABB.cpp:265-289 [PointOnEdge]. *)
  Definition AABB_PointOnEdge (b : aabb T) (i : nat) (u : T) : vec T :=
    let mn := minPoint b in let mx := maxPoint b in
    let d := vsub mx mn in
    match i with
    | 1%nat => V3 (vx mn) (vy mx) (vz mn + u * vz d)
    | 2%nat => V3 (vx mx) (vy mn) (vz mn + u * vz d)
    | 3%nat => V3 (vx mx) (vy mx) (vz mn + u * vz d)
    | 4%nat => V3 (vx mn) (vy mn + u * vy d) (vz mn)
    | 5%nat => V3 (vx mx) (vy mn + u * vy d) (vz mn)
    | 6%nat => V3 (vx mn) (vy mn + u * vy d) (vz mx)
    | 7%nat => V3 (vx mx) (vy mn + u * vy d) (vz mx)
    | 8%nat => V3 (vx mn + u * vx d) (vy mn) (vz mn)
    | 9%nat => V3 (vx mn + u * vx d) (vy mn) (vz mx)
    | 10%nat => V3 (vx mn + u * vx d) (vy mx) (vz mn)
    | 11%nat => V3 (vx mn + u * vx d) (vy mx) (vz mx)
    | _ => V3 (vx mn) (vy mn) (vz mn + u * vz d)
    end.
  (** AABB.cpp:291-306 [FaceCenterPoint], 308-325 [FacePoint], 327-340 [FaceNormal]. *)
  Definition AABB_FaceCenterPoint (b : aabb T) (i : nat) : vec T :=
    let mn := minPoint b in let mx := maxPoint b in
    let center := vmuls (vadd mn mx) nhalf in
    match i with
    | 1%nat => V3 (vx mx) (vy center) (vz center)
    | 2%nat => V3 (vx center) (vy mn) (vz center)
    | 3%nat => V3 (vx center) (vy mx) (vz center)
    | 4%nat => V3 (vx center) (vy center) (vz mn)
    | 5%nat => V3 (vx center) (vy center) (vz mx)
    | _ => V3 (vx mn) (vy center) (vz center)
    end.
  Definition AABB_FacePoint (b : aabb T) (i : nat) (u v : T) : vec T :=
    let mn := minPoint b in let mx := maxPoint b in
    let d := vsub mx mn in
    match i with
    | 1%nat => V3 (vx mx) (vy mn + u * vy d) (vz mn + v * vz d)
    | 2%nat => V3 (vx mn + u * vx d) (vy mn) (vz mn + v * vz d)
    | 3%nat => V3 (vx mn + u * vx d) (vy mx) (vz mn + v * vz d)
    | 4%nat => V3 (vx mn + u * vx d) (vy mn + v * vy d) (vz mn)
    | 5%nat => V3 (vx mn + u * vx d) (vy mn + v * vy d) (vz mx)
    | _ => V3 (vx mn) (vy mn + u * vy d) (vz mn + v * vz d)
    end.
  Definition AABB_FaceNormal (i : nat) : vec T :=
    match i with
    | 1%nat => V3 n1 n0 n0
    | 2%nat => V3 n0 (- n1) n0
    | 3%nat => V3 n0 n1 n0
    | 4%nat => V3 n0 n0 (- n1)
    | 5%nat => V3 n0 n0 n1
    | _ => V3 (- n1) n0 n0
    end.

  (** AABB.cpp:369-384 [ExtremePointsAlongAABB]: the six indices (all zero for an empty array; the C++ leaves them unset
      for a null pointer). *)
  Fixpoint argbest (lt : T -> T -> bool) (xs : list T) (i best : nat) (bestv : T) : nat :=
    match xs with
    | [] => best
    | x :: r => if lt x bestv then argbest lt r (S i) i x else argbest lt r (S i) best bestv
    end.
  Definition argmin (xs : list T) : nat := match xs with [] => 0%nat | x :: r => argbest (fun a b => a <? b) r 1 0 x end.
  Definition argmax (xs : list T) : nat := match xs with [] => 0%nat | x :: r => argbest (fun a b => a >? b) r 1 0 x end.
  Definition AABB_ExtremePointsAlongAABB (pts : list (vec T)) : nat * nat * nat * nat * nat * nat :=
    (argmin (map vx pts), argmax (map vx pts), argmin (map vy pts), argmax (map vy pts), argmin (map vz pts), argmax (map vz pts)).

  (** AABB.cpp:442-451 [Translate], [Translated]; 453-457 [Scale] by a scalar. *)
  Definition AABB_Translate (b : aabb T) (offset : vec T) : aabb T := Box (vadd (minPoint b) offset) (vadd (maxPoint b) offset).
  Definition AABB_Scale (b : aabb T) (c : vec T) (s : T) : aabb T :=
    Box (vadd (vmuls (vsub (minPoint b) c) s) c) (vadd (vmuls (vsub (maxPoint b) c) s) c).
  (** AABB.cpp:469-482 [AABBTransformAsAABB] given the 3x3 part of the matrix and its MulPos. *)
  Definition AABBTransformAsAABB (b : aabb T) (m : mat3 T) (mulpos : vec T -> vec T) : aabb T :=
    let centerPoint := vmuls (vadd (minPoint b) (maxPoint b)) nhalf in
    let halfSize := vsub centerPoint (minPoint b) in
    let newCenter := mulpos centerPoint in
    let rowabs r := Abs (vx r * vx halfSize) + Abs (vy r * vy halfSize) + Abs (vz r * vz halfSize) in
    let newDir := V3 (rowabs (row0 m)) (rowabs (row1 m)) (rowabs (row2 m)) in
    Box (vsub newCenter newDir) (vadd newCenter newDir).
  (** AABB.cpp:503-509, 511-517 [TransformAsAABB] (float3x3, float3x4). *)
  Definition AABB_TransformAsAABB3 (b : aabb T) (m : mat3 T) : aabb T := AABBTransformAsAABB b m (mulv m).
  Definition AABB_TransformAsAABB34 (b : aabb T) (m : mat34 T) : aabb T := AABBTransformAsAABB b (lin34 m) (mulpos34 m).

  (** AABB.cpp:568-576 [ClosestPoint], 578-583 [Distance(point)], 585-588 [Distance(Sphere)]. *)
  Definition AABB_ClosestPoint (b : aabb T) (p : vec T) : vec T := vClamp p (minPoint b) (maxPoint b).
  Definition AABB_Distance (b : aabb T) (p : vec T) : T := Distance (AABB_ClosestPoint b p) p.
  Definition AABB_DistanceSphere (b : aabb T) (s : sphere T) : T := Max n0 (AABB_Distance b (spos s) - srad s).
  (** AABB.cpp:590-620 [Contains(point)], 627-639 [Contains(min,max)], 622-625 segment, 646-649 sphere; AABB.h:334 box. *)
  Definition AABB_Contains (b : aabb T) (p : vec T) : bool :=
    (vx (minPoint b) <=? vx p) && (vx p <=? vx (maxPoint b)) &&
    (vy (minPoint b) <=? vy p) && (vy p <=? vy (maxPoint b)) &&
    (vz (minPoint b) <=? vz p) && (vz p <=? vz (maxPoint b)).
  Definition AABB_ContainsMinMax (b : aabb T) (mn mx : vec T) : bool :=
    (vx (minPoint b) <=? vx mn) && (vx (maxPoint b) >=? vx mx) &&
    (vy (minPoint b) <=? vy mn) && (vy (maxPoint b) >=? vy mx) &&
    (vz (minPoint b) <=? vz mn) && (vz (maxPoint b) >=? vz mx).
  Definition AABB_ContainsAABB (b c : aabb T) : bool := AABB_ContainsMinMax b (minPoint c) (maxPoint c).
  Definition AABB_ContainsSegment (b : aabb T) (s : segment T) : bool :=
    AABB_ContainsMinMax b (vMin (seg_a s) (seg_b s)) (vMax (seg_a s) (seg_b s)).
  Definition AABB_ContainsSphere (b : aabb T) (s : sphere T) : bool :=
    AABB_ContainsMinMax b (vsub (spos s) (FromScalar (srad s))) (vadd (spos s) (FromScalar (srad s))).

  (** Comparison and Min/Max when one argument may be FLOAT_INF. *)
  Definition emax (x : T) (y : ext T) : ext T := match y with MInf => Fin x | Fin y => Fin (Max x y) | PInf => PInf end.
  Definition emin (x : T) (y : ext T) : ext T := match y with MInf => MInf | Fin y => Fin (Min x y) | PInf => Fin x end.
  Definition egt (x y : ext T) : bool :=
    match x, y with
    | MInf, _ | _, PInf => false
    | Fin x, Fin y => x >? y
    | _, _ => true
    end.
  Definition ele (x y : ext T) : bool :=
    match x, y with
    | MInf, _ | _, PInf => true
    | Fin x, Fin y => x <=? y
    | _, _ => false
    end.
  (** AABB.cpp:725-793 [IntersectLineAABB_CPP]: hit and the updated tNear, tFar.  One slab (the three blocks are the same code
      but for the coordinate; the third has no early out, which the final comparison repeats).  [EqualAbs] has the default
      epsilon 1e-4 (MathFunc.h:454); [RecipFast(x)] is 1/x without SIMD (MathFunc.h:303-318). *)
  Definition slab (mn mx pos dir : T) (tn tf : ext T) : bool * ext T * ext T :=
    if negb (EqualAbs dir n0 (nlit 1 10000)) then
      let recipDir := n1 / dir in
      let t1 := (mn - pos) * recipDir in
      let t2 := (mx - pos) * recipDir in
      if t1 <? t2 then (true, emax t1 tn, emin t2 tf) else (true, emax t2 tn, emin t1 tf)
    else (negb ((pos <? mn) || (pos >? mx)), tn, tf).
  Definition AABB_IntersectLine (b : aabb T) (p d : vec T) (tn tf : ext T) : bool * ext T * ext T :=
    let '(h, tn, tf) := slab (vx (minPoint b)) (vx (maxPoint b)) (vx p) (vx d) tn tf in
    if negb h then (false, tn, tf) else
    if negb (EqualAbs (vx d) n0 (nlit 1 10000)) && egt tn tf then (false, tn, tf) else
    let '(h, tn, tf) := slab (vy (minPoint b)) (vy (maxPoint b)) (vy p) (vy d) tn tf in
    if negb h then (false, tn, tf) else
    if negb (EqualAbs (vy d) n0 (nlit 1 10000)) && egt tn tf then (false, tn, tf) else
    let '(h, tn, tf) := slab (vz (minPoint b)) (vz (maxPoint b)) (vz p) (vz d) tn tf in
    if negb h then (false, tn, tf) else
    (ele tn tf, tn, tf).
  (** AABB.cpp:903-908, 696-706 ray, 910-915, 684-694 line, 917-935, 708-723 segment: hit, dNear, dFar. *)
  Definition AABB_IntersectsRay (b : aabb T) (r : ray T) := AABB_IntersectLine b (rpos r) (rdir r) (Fin n0) PInf.
  Definition AABB_IntersectsLine (b : aabb T) (l : line T) := AABB_IntersectLine b (lpos l) (ldir l) MInf PInf.
  Definition escale (x : ext T) (k : T) : ext T := match x with Fin x => Fin (x * k) | _ => x end.
  Definition AABB_IntersectsSegment (b : aabb T) (s : segment T) : bool * ext T * ext T :=
    let dir := vsub (seg_b s) (seg_a s) in
    let len := Length dir in
    if len <=? nlit 1 10000 then (AABB_Contains b (seg_a s), Fin n0, Fin n1)
    else
      let invLen := n1 / len in
      let dir := vmuls dir invLen in
      let '(hit, dn, df) := AABB_IntersectLine b (seg_a s) dir (Fin n0) (Fin len) in
      (hit, escale dn invLen, escale df invLen).

  (** AABB.cpp:942-969 [Intersects(AABB)], 976-986 [Intersects(Sphere)], 1254-1257 [Intersection]. *)
  Definition AABB_Intersects (a b : aabb T) : bool :=
    (vx (minPoint a) <? vx (maxPoint b)) && (vy (minPoint a) <? vy (maxPoint b)) && (vz (minPoint a) <? vz (maxPoint b)) &&
    (vx (minPoint b) <? vx (maxPoint a)) && (vy (minPoint b) <? vy (maxPoint a)) && (vz (minPoint b) <? vz (maxPoint a)).
  Definition AABB_IntersectsSphere (b : aabb T) (s : sphere T) : bool :=
    let pt := AABB_ClosestPoint b (spos s) in DistanceSq pt (spos s) <=? srad s * srad s.
  Definition AABB_Intersection (a b : aabb T) : aabb T :=
    Box (vMax (minPoint a) (minPoint b)) (vMin (maxPoint a) (maxPoint b)).

  (** AABB.cpp:1013-1029 [ProjectToAxis]. *)
  Definition AABB_ProjectToAxis (b : aabb T) (axis : vec T) : T * T :=
    let c := vmuls (vadd (minPoint b) (maxPoint b)) nhalf in
    let e := vsub (maxPoint b) c in
    let r := Abs (vx e * Abs (vx axis) + vy e * Abs (vy axis) + vz e * Abs (vz axis)) in
    let s := Dot axis c in
    (s - r, s + r).

  (** AABB.cpp:1047-1051 [Enclose(point)], 1058-1062 (min, max), 1053-1056 segment, 1064-1071 OBB, 1073-1077 sphere,
      1079-1082 triangle (Min of three is Min(Min(a,b),c), MathFunc.h:369-372), 1084-1089 capsule. *)
  Definition AABB_Enclose (b : aabb T) (p : vec T) : aabb T := Box (vMin (minPoint b) p) (vMax (maxPoint b) p).
  Definition AABB_EncloseMinMax (b : aabb T) (mn mx : vec T) : aabb T := Box (vMin (minPoint b) mn) (vMax (maxPoint b) mx).
  Definition AABB_EncloseSegment (b : aabb T) (s : segment T) : aabb T :=
    AABB_EncloseMinMax b (vMin (seg_a s) (seg_b s)) (vMax (seg_a s) (seg_b s)).
  Definition AABB_EncloseOBB (b : aabb T) (o : obb T) : aabb T :=
    let d := vadd (vadd (smulv (vx (orad o)) (vAbs (oaxis0 o))) (smulv (vy (orad o)) (vAbs (oaxis1 o)))) (smulv (vz (orad o)) (vAbs (oaxis2 o))) in
    AABB_EncloseMinMax b (vsub (opos o) d) (vadd (opos o) d).
  Definition AABB_EncloseSphere (b : aabb T) (s : sphere T) : aabb T :=
    let d := FromScalar (srad s) in AABB_EncloseMinMax b (vsub (spos s) d) (vadd (spos s) d).
  Definition AABB_EncloseTriangle (b : aabb T) (t : triangle T) : aabb T :=
    AABB_EncloseMinMax b (vMin (vMin (tri_a t) (tri_b t)) (tri_c t)) (vMax (vMax (tri_a t) (tri_b t)) (tri_c t)).
  Definition AABB_EncloseCapsule (b : aabb T) (c : capsule T) : aabb T :=
    let d := FromScalar (cap_r c) in
    Box (vMin (minPoint b) (vsub (vMin (seg_a (cap_l c)) (seg_b (cap_l c))) d))
        (vMax (maxPoint b) (vadd (vMax (seg_a (cap_l c)) (seg_b (cap_l c))) d)).
  (** AABB.cpp:1106-1113 [Enclose(points)]. *)
  Definition AABB_EnclosePoints (b : aabb T) (ps : list (vec T)) : aabb T := fold_left AABB_Enclose ps b.

  (** AABB.cpp:68-72 [SetNegativeInfinity], 94-102 [SetFrom(points)], 362-367 [MinimalEnclosingAABB]. *)
  Context `{NI : !NumInf T}.
  Definition AABB_NegativeInfinity : aabb T := Box (FromScalar ninf) (FromScalar (- ninf)).
  Definition AABB_SetFromPoints (ps : list (vec T)) : aabb T := AABB_EnclosePoints AABB_NegativeInfinity ps.
End Aabb.
