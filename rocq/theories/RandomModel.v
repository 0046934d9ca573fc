(** Random vectors, rotations and points: float2.cpp, float3.cpp, Quat.cpp, Capsule.cpp, Frustum.cpp, Polygon.cpp, AABB.cpp, OBB.cpp
    under /repo/src.  The generator is modelled by the numbers it returns, in the order in which they are asked for (its own model is
    LcgModel.v).  Not modelled: the float4 forms (they wrap the float3 ones), [RandomGeneral] (fills an array with draws). *)
From Coq Require Import ZArith Bool List.
From Verif Require Import Num ScalarModel Vec3Model GeoTypes MatModel AabbModel LineModel RotModel PlaneModel SphereModel ObbModel CircleModel CapsuleModel TriangleModel Vec2Model FrustumModel PolygonModel.
Import ListNotations.

Section Random.
  Context {T : Type} `{NT : Num T}.
  Local Open Scope num_scope.
  Implicit Types draw : nat -> T.
  (** float3.cpp:871-874 [RandomDir], 876-879 [RandomSphere], 891-894 [RandomBox] (881-889 pass the corners), 610-613
      [RandomPerpendicular], with the default second hint of float3.h:532. *)
  Definition Vec3_RandomDir draw (length : T) : vec T := Sphere_RandomPointOnSurface (Sph (V3 n0 n0 n0) length) draw.
  Definition Vec3_RandomSphere draw (center : vec T) (radius : T) : vec T := Sphere_RandomPointInside (Sph center radius) draw.
  Definition Vec3_RandomBox draw (minValues maxValues : vec T) : vec T :=
    AABB_PointInside (Box minValues maxValues) (draw 0%nat) (draw 1%nat) (draw 2%nat).
  Definition Vec3_RandomPerpendicular draw (v : vec T) : vec T := Perpendicular v (Vec3_RandomDir draw n1) (V3 n0 n0 n1).
  (** float2.cpp:629-642 [RandomDir]: [draw] are the results of lcg.Float(-r, r). *)
  Fixpoint random_dir2 (tries k : nat) draw (r : T) : v2 T :=
    match tries with
    | O => V2 r n0
    | S n =>
        let x := draw k in let y := draw (k + 1)%nat in
        let lenSq := x * x + y * y in
        if (lenSq >=? nlit 1 1000000) && (lenSq <=? r * r) then smul2 (r / nsqrt lenSq) (V2 x y)
        else random_dir2 n (k + 2) draw r
    end.
  Definition Vec2_RandomDir draw (r : T) : v2 T := random_dir2 1000 0 draw r.
  (** Quat.cpp:705-720 [RandomRotation]: [draw] are the results of lcg.Float(-1, 1); float3x3.cpp:135-140 [RandomRotation]. *)
  Fixpoint random_quat (tries k : nat) draw : quat T :=
    match tries with
    | O => QIdentity
    | S n =>
        let x := draw k in let y := draw (k + 1)%nat in let z := draw (k + 2)%nat in let w := draw (k + 3)%nat in
        let lenSq := x * x + y * y + z * z + w * w in
        if (lenSq >=? nlit 1 1000000) && (lenSq <=? n1) then QDivS (Q4 x y z w) (nsqrt lenSq)
        else random_quat n (k + 4) draw
    end.
  Definition Quat_RandomRotation draw : quat T := random_quat 1000 0 draw.
  Definition Mat3_RandomRotation draw : mat3 T := FromQuat (Quat_RandomRotation draw).
  (** AABB.cpp:414-440, OBB.cpp:2301-2327 [RandomPointInside], [RandomPointOnSurface], [RandomPointOnEdge], [RandomCornerPoint]: [i] is
      the result of rng.Int(0, 5), (0, 11), (0, 7); [draw] are the results of rng.Float(). *)
  Definition AABB_RandomPointInside (b : aabb T) draw : vec T := AABB_PointInside b (draw 0%nat) (draw 1%nat) (draw 2%nat).
  Definition AABB_RandomPointOnSurface (b : aabb T) (i : nat) draw : vec T := AABB_FacePoint b i (draw 0%nat) (draw 1%nat).
  Definition AABB_RandomPointOnEdge (b : aabb T) (i : nat) draw : vec T := AABB_PointOnEdge b i (draw 0%nat).
  Definition AABB_RandomCornerPoint (b : aabb T) (i : nat) : vec T := AABB_CornerPoint b i.
  Definition OBB_RandomPointInside (o : obb T) (k : nat) draw : vec T := OBB_PointInside o (draw k) (draw (k + 1)%nat) (draw (k + 2)%nat).
  Definition OBB_RandomPointOnSurface (o : obb T) (i : nat) draw : vec T := OBB_FacePoint o i (draw 0%nat) (draw 1%nat).
  Definition OBB_RandomPointOnEdge (o : obb T) (i : nat) draw : vec T := OBB_PointOnEdge o i (draw 0%nat).
  Definition OBB_RandomCornerPoint (o : obb T) (i : nat) : vec T := OBB_CornerPoint o i.
  (** Capsule.cpp:180-183 [UniformPointPerhapsInside], 214-227 [RandomPointInside]. *)
  Definition Capsule_UniformPointPerhapsInside (c : capsule T) (height x y : T) : vec T :=
    OBB_PointInside (Capsule_MinimalEnclosingOBB c) height x y.
  Fixpoint random_capsule (tries k : nat) (c : capsule T) draw : vec T :=
    match tries with
    | O => Capsule_Center c
    | S n =>
        let p := OBB_RandomPointInside (Capsule_MinimalEnclosingOBB c) k draw in
        if Capsule_Contains c p then p else random_capsule n (k + 3) c draw
    end.
  Definition Capsule_RandomPointInside (c : capsule T) draw : vec T := random_capsule 1000 0 c draw.
  (** Polygon.cpp:901-908 [FastRandomPointInside]: [i] is the result of rng.Int(0, tris.size()-1), [s0] and [t0] those of the draws in
      Triangle::RandomPointInside; 896-899 [RandomPointOnEdge].  [None]: NaN. *)
  Definition Poly_FastRandomPointInside (ps : list (vec T)) (i : nat) (s0 t0 : T) : option (vec T) :=
    option_map (fun t => Tri_RandomPointInside t s0 t0) (nth_error (Poly_Triangulate ps) i).
  Definition Poly_RandomPointOnEdge (ps : list (vec T)) (f : T) : option (vec T) := Poly_PointOnEdge ps f.
End Random.

Section RandomTrig.
  Context {T : Type} `{TT : NumTrig T}.
  Local Open Scope num_scope.
  Implicit Types draw : nat -> T.
  (** Frustum.cpp:709-715 [FastRandomPointInside]: [draw k], [draw (k+1)] are the results of rng.Float(-1, 1), [draw (k+2)] that of
      rng.Float(0, 1); 717-733 [UniformRandomPointInside]: [u] are the results of rng.Float() in the loop, [draw] the later ones. *)
  Definition Frustum_FastRandomPointInside (f : frustum T) draw : vec T := Frustum_PointInside f (draw 0%nat) (draw 1%nat) (draw 2%nat).
  Fixpoint random_frustum (tries k : nat) (f : frustum T) (u draw : nat -> T) : vec T :=
    match tries with
    | O => Frustum_FastRandomPointInside f draw
    | S n =>
        let p := OBB_RandomPointInside (Frustum_MinimalEnclosingOBB f (nlit 1 100000)) k u in
        if Frustum_Contains f p then p else random_frustum n (k + 3) f u draw
    end.
  Definition Frustum_UniformRandomPointInside (f : frustum T) (u draw : nat -> T) : vec T :=
    match ftype f with
    | OrthographicFrustum => Frustum_FastRandomPointInside f draw
    | _ => random_frustum 1000 0 f u draw
    end.
End RandomTrig.
