(** Circle (/repo/src/Geometry/Circle.h, Circle.cpp), scalar build.

    The record itself and [ContainingPlane] are in PlaneModel.v, and [Intersects(Plane)] (Circle.cpp:195-203) forwards to
    Plane_IntersectsCircle there.  [IntersectsFaces] (Circle.cpp:233-252) is in ObbModel.v.  Not modelled: strings, and the functions that are
    commented out in the source.  [BasisU] and [BasisV] use the default hints of float3.h [Perpendicular]. *)
From Coq Require Import ZArith Bool List.
From Verif Require Import Num ScalarModel Vec3Model GeoTypes MatModel AabbModel LineModel RotModel PlaneModel.
Import ListNotations.

Section Circle.
  Context {T : Type} `{NT : Num T}.
  Local Open Scope num_scope.
  Implicit Types (c : circle T) (p v : vec T).

  (** Circle.cpp:45-53 [BasisU], [BasisV] (hints float3.h:532, 537). *)
  Definition Circle_BasisU c : vec T := Perpendicular (circ_normal c) (V3 n0 n1 n0) (V3 n0 n0 n1).
  Definition Circle_BasisV c : vec T := AnotherPerpendicular (circ_normal c) (V3 n0 n1 n0) (V3 n0 n0 n1).
  (** Circle.cpp:69-76 [ExtremePoint]. *)
  Definition Circle_ExtremePoint c (direction : vec T) : vec T :=
    let d := vsub direction (ProjectToNorm direction (circ_normal c)) in
    if IsZero d then circ_pos c else vadd (circ_pos c) (ScaledToLength d (circ_r c)).
  (** Circle.cpp:83-86 [Translate], 88-119 [Transform] (the float4x4 form does the same as the float3x4 one). *)
  Definition Circle_Translate c v : circle T := Circ (vadd (circ_pos c) v) (circ_normal c) (circ_r c).
  Definition Circle_Transform3 c (m : mat3 T) : circle T :=
    Circ (mulv m (circ_pos c)) (Normalized (mulv m (circ_normal c))) (circ_r c * Length (col0 m)).
  Definition Circle_Transform34 c (m : mat34 T) : circle T :=
    Circ (mulpos34 m (circ_pos c)) (Normalized (muldir34 m (circ_normal c))) (circ_r c * Length (col0 (lin34 m))).
  Definition Circle_TransformQuat c (q : quat T) : circle T :=
    Circ (mulv (FromQuat q) (circ_pos c)) (mulv (FromQuat q) (circ_normal c)) (circ_r c).
  (** Circle.cpp:184-193 [ClosestPointToDisc], 170-173 [DistanceToDisc]. *)
  Definition Circle_ClosestPointToDisc c p : vec T :=
    let pointOnPlane := Plane_Project (Circle_ContainingPlane c) p in
    let diff := vsub pointOnPlane (circ_pos c) in
    let dist := LengthSq diff in
    let diff := if dist >? circ_r c * circ_r c then vmuls diff (circ_r c / nsqrt dist) else diff in
    vadd (circ_pos c) diff.
  Definition Circle_DistanceToDisc c p : T := Distance (Circle_ClosestPointToDisc c p) p.
  (** Circle.cpp:205-230 [IntersectsDisc].  The parameter [d] is always written by the plane test. *)
  Definition Circle_IntersectsDiscLine c (l : line T) : bool :=
    let '(hit, d) := Plane_IntersectsLine (Circle_ContainingPlane c) l in
    if hit then false else DistanceSq (Line_GetPoint l d) (circ_pos c) <=? circ_r c * circ_r c.
  Definition Circle_IntersectsDiscSeg c (l : segment T) : bool :=
    let '(hit, d) := Plane_IntersectsSeg (Circle_ContainingPlane c) l in
    if hit then false else DistanceSq (Seg_GetPoint l d) (circ_pos c) <=? circ_r c * circ_r c.
  Definition Circle_IntersectsDiscRay c (l : ray T) : bool :=
    let '(hit, d) := Plane_IntersectsRay (Circle_ContainingPlane c) l in
    if hit then false else DistanceSq (Ray_GetPoint l d) (circ_pos c) <=? circ_r c * circ_r c.
End Circle.

Section CircleTrig.
  Context {T : Type} `{TT : NumTrig T}.
  Local Open Scope num_scope.
  Implicit Types (c : circle T) (p : vec T).

  (** Circle.cpp:55-67 [GetPoint]. *)
  Definition Circle_GetPoint c (angleRadians : T) : vec T :=
    vadd (circ_pos c) (smulv (circ_r c) (vadd (smulv (nsin angleRadians) (Circle_BasisU c)) (smulv (ncos angleRadians) (Circle_BasisV c)))).
  Definition Circle_GetPointDist c (angleRadians d : T) : vec T :=
    vadd (circ_pos c) (smulv (circ_r c * d) (vadd (smulv (ncos angleRadians) (Circle_BasisU c)) (smulv (nsin angleRadians) (Circle_BasisV c)))).
  (** Circle.cpp:175-182 [ClosestPointToEdge], 132-135 [DistanceToEdge], 121-124 [EdgeContains]. *)
  Definition Circle_ClosestPointToEdge c p : vec T :=
    let pointOnPlane := Plane_Project (Circle_ContainingPlane c) p in
    let diff := vsub pointOnPlane (circ_pos c) in
    if IsZero diff then Circle_GetPoint c n0 else vadd (circ_pos c) (ScaledToLength diff (circ_r c)).
  Definition Circle_DistanceToEdge c p : T := Distance (Circle_ClosestPointToEdge c p) p.
  Definition Circle_EdgeContains c p (maxDistance : T) : bool := Circle_DistanceToEdge c p <=? maxDistance.
End CircleTrig.
