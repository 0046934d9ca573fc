(** Model of float2 (/repo/src/Math/float2.h, float2.cpp, float2.inl) and AABB2D (/repo/src/Geometry/AABB2D.h), scalar code
    path (vec2d = float2, /repo/src/Math/vec2d.h).  Not modelled: angles and polar coordinates, strings, random vectors,
    swizzles.  ConvexHull and MinAreaRect are in HullModel.v and MinRectModel.v. *)
From Coq Require Import ZArith Bool List.
From Verif Require Import Num ScalarModel.
Import ListNotations.

(** float2.h:50-60: the two members. *)
Record v2 (T : Type) : Type := V2 { x2 : T; y2 : T }.
Arguments V2 {T}. Arguments x2 {T}. Arguments y2 {T}.
(** AABB2D.h:46-47. *)
Record aabb2 (T : Type) := Box2 { min2 : v2 T; max2 : v2 T }.
Arguments Box2 {T}. Arguments min2 {T}. Arguments max2 {T}.

Section Vec2.
  Context {T : Type} `{NT : Num T}.
  Open Scope num_scope.
  (** float2.cpp:651-712 operators; 714-742 the element-wise functions; 744-751 division (by the reciprocal). *)
  Definition add2 (a b : v2 T) : v2 T := V2 (x2 a + x2 b) (y2 a + y2 b).
  Definition sub2 (a b : v2 T) : v2 T := V2 (x2 a - x2 b) (y2 a - y2 b).
  Definition neg2 (a : v2 T) : v2 T := V2 (- x2 a) (- y2 a).
  Definition muls2 (a : v2 T) (s : T) : v2 T := V2 (x2 a * s) (y2 a * s).
  Definition smul2 (s : T) (a : v2 T) : v2 T := V2 (s * x2 a) (s * y2 a).
  Definition divs2 (a : v2 T) (s : T) : v2 T := let inv := n1 / s in V2 (x2 a * inv) (y2 a * inv).
  Definition mul2 (a b : v2 T) : v2 T := V2 (x2 a * x2 b) (y2 a * y2 b).
  Definition div2 (a b : v2 T) : v2 T := V2 (x2 a / x2 b) (y2 a / y2 b).
  (** float2.cpp:75-83 [LengthSq], [Length]. *)
  Definition LengthSq2 (v : v2 T) : T := x2 v * x2 v + y2 v * y2 v.
  Definition Length2 (v : v2 T) : T := nsqrt (LengthSq2 v).
  (** float2.cpp:115-130 [Normalize]: new value and returned length, 132-139 [Normalized]. *)
  Definition Normalize2 (v : v2 T) : v2 T * T :=
    let lengthSq := LengthSq2 v in
    if lengthSq >? nlit 1 1000000 then let length := nsqrt lengthSq in (muls2 v (n1 / length), length) else (V2 n1 n0, n0).
  Definition Normalized2 (v : v2 T) : v2 T := fst (Normalize2 v).
  (** float2.cpp:141-152 [ScaleToLength]. *)
  Definition ScaleToLength2 (v : v2 T) (newLength : T) : v2 T * T :=
    let length := LengthSq2 v in
    if length <? nlit 1 1000000 then (v, n0)
    else let length := nsqrt length in let scalar := newLength / length in (V2 (x2 v * scalar) (y2 v * scalar), length).
  (** float2.cpp:163-187 [IsNormalized], [IsZero], [IsPerpendicular], [Equals]. *)
  Definition IsNormalized2 (v : v2 T) (epsilonSq : T) : bool := Abs (LengthSq2 v - n1) <=? epsilonSq.
  Definition IsZero2 (v : v2 T) (epsilonSq : T) : bool := LengthSq2 v <=? epsilonSq.
  (** float2.cpp:356-369 [Dot], [Perp], [PerpDot]. *)
  Definition Dot2 (a b : v2 T) : T := x2 a * x2 b + y2 a * y2 b.
  Definition Perp2 (a : v2 T) : v2 T := V2 (- y2 a) (x2 a).
  Definition PerpDot2 (a b : v2 T) : T := x2 a * y2 b - y2 a * x2 b.
  Definition IsPerpendicular2 (a b : v2 T) (epsilonSq : T) : bool :=
    let dot := Dot2 a b in dot * dot <=? epsilonSq * LengthSq2 a * LengthSq2 b.
  Definition Equals2 (a b : v2 T) (epsilon : T) : bool := EqualAbs (x2 a) (x2 b) epsilon && EqualAbs (y2 a) (y2 b) epsilon.
  (** float2.cpp:259-342: element functions. *)
  Definition MinElement2 (v : v2 T) : T := Min (x2 v) (y2 v).
  Definition MaxElement2 (v : v2 T) : T := Max (x2 v) (y2 v).
  Definition MinElementIndex2 (v : v2 T) : nat := if x2 v <=? y2 v then 0 else 1.
  Definition MaxElementIndex2 (v : v2 T) : nat := if x2 v >? y2 v then 0 else 1.
  Definition Abs2 (v : v2 T) : v2 T := V2 (Abs (x2 v)) (Abs (y2 v)).
  Definition vMin2 (a b : v2 T) : v2 T := V2 (Min (x2 a) (x2 b)) (Min (y2 a) (y2 b)).
  Definition vMax2 (a b : v2 T) : v2 T := V2 (Max (x2 a) (x2 b)) (Max (y2 a) (y2 b)).
  Definition vClamp2 (v lo hi : v2 T) : v2 T := V2 (Clamp (x2 v) (x2 lo) (x2 hi)) (Clamp (y2 v) (y2 lo) (y2 hi)).
  (** float2.cpp:344-354 [DistanceSq], [Distance]. *)
  Definition DistanceSq2 (a b : v2 T) : T := let dx := x2 a - x2 b in let dy := y2 a - y2 b in dx * dx + dy * dy.
  Definition Distance2 (a b : v2 T) : T := nsqrt (DistanceSq2 a b).
  (** float2.cpp:389-399 [ProjectTo], [ProjectToNorm], 371-375 [Reflect], 378-387 [Refract]. *)
  Definition ProjectTo2 (v direction : v2 T) : v2 T := divs2 (muls2 direction (Dot2 v direction)) (LengthSq2 direction).
  Definition ProjectToNorm2 (v direction : v2 T) : v2 T := muls2 direction (Dot2 v direction).
  Definition Reflect2 (v normal : v2 T) : v2 T := sub2 (smul2 n2 (ProjectToNorm2 v normal)) v.
  Definition Refract2 (v normal : v2 T) (negativeSide positiveSide : T) : v2 T :=
    let n := negativeSide / positiveSide in
    let cosI := Dot2 v normal in
    let sinT2 := n * n * (n1 - cosI * cosI) in
    if sinT2 >? n1 then Reflect2 (neg2 v) normal
    else sub2 (smul2 n v) (smul2 (n + nsqrt (n1 - sinT2)) normal).
  (** float2.cpp:413-417 [Lerp], 424-429 [Decompose], 431-435 [Orthogonalize] (the new b), 443-448 [Orthonormalize]. *)
  Definition Lerp2 (a b : v2 T) (t : T) : v2 T := add2 (smul2 (n1 - t) a) (smul2 t b).
  Definition Decompose2 (v direction : v2 T) : v2 T * v2 T :=
    let par := smul2 (Dot2 v direction) direction in (par, sub2 v par).
  Definition Orthogonalize2 (a b : v2 T) : v2 T := sub2 b (smul2 (Dot2 a b / Length2 a) a).
  Definition Orthonormalize2 (a b : v2 T) : v2 T * v2 T := let a' := Normalized2 a in (a', sub2 b (smul2 (Dot2 a' b) a')).
  (** float2.cpp:467-489 the quarter turns. *)
  Definition Rotated90CW (a : v2 T) : v2 T := V2 (y2 a) (- x2 a).
  Definition Rotated90CCW (a : v2 T) : v2 T := V2 (- y2 a) (x2 a).
  (** float2.cpp:491-499 [OrientedCCW]. *)
  Definition OrientedCCW (a b c : v2 T) : bool :=
    (x2 a - x2 c) * (y2 b - y2 c) - (y2 a - y2 c) * (x2 b - x2 c) >=? n0.

  (** AABB2D.h:50-57 [Width], [Height], [DistanceSq]. *)
  Definition Width2 (b : aabb2 T) : T := x2 (max2 b) - x2 (min2 b).
  Definition Height2 (b : aabb2 T) : T := y2 (max2 b) - y2 (min2 b).
  Definition AABB2D_DistanceSq (b : aabb2 T) (pt : v2 T) : T := DistanceSq2 (vClamp2 pt (min2 b) (max2 b)) pt.
  (** AABB2D.h:65-69 [Enclose], 71-77 [Intersects], 79-89 [Contains], 97-105 [IsDegenerate], [HasNegativeVolume]. *)
  Definition AABB2D_Enclose (b : aabb2 T) (pt : v2 T) : aabb2 T := Box2 (vMin2 (min2 b) pt) (vMax2 (max2 b) pt).
  Definition AABB2D_Intersects (a b : aabb2 T) : bool :=
    (x2 (max2 a) >=? x2 (min2 b)) && (y2 (max2 a) >=? y2 (min2 b)) && (x2 (max2 b) >=? x2 (min2 a)) && (y2 (max2 b) >=? y2 (min2 a)).
  Definition AABB2D_ContainsBox (a b : aabb2 T) : bool :=
    (x2 (min2 b) >=? x2 (min2 a)) && (y2 (min2 b) >=? y2 (min2 a)) && (x2 (max2 b) <=? x2 (max2 a)) && (y2 (max2 b) <=? y2 (max2 a)).
  Definition AABB2D_Contains (a : aabb2 T) (pt : v2 T) : bool :=
    (x2 pt >=? x2 (min2 a)) && (y2 pt >=? y2 (min2 a)) && (x2 pt <=? x2 (max2 a)) && (y2 pt <=? y2 (max2 a)).
  Definition AABB2D_IsDegenerate (a : aabb2 T) : bool := (x2 (min2 a) >=? x2 (max2 a)) || (y2 (min2 a) >=? y2 (max2 a)).
  Definition AABB2D_HasNegativeVolume (a : aabb2 T) : bool := (x2 (max2 a) <? x2 (min2 a)) || (y2 (max2 a) <? y2 (min2 a)).
  (** AABB2D.h:112-120 [PosInside], [ToNormalizedLocalSpace], 127-138 [CornerPoint], 171-185 [operator +], [operator -]. *)
  Definition AABB2D_PosInside (a : aabb2 T) (p : v2 T) : v2 T := add2 (min2 a) (mul2 p (sub2 (max2 a) (min2 a))).
  Definition AABB2D_ToNormalizedLocalSpace (a : aabb2 T) (p : v2 T) : v2 T := div2 (sub2 p (min2 a)) (sub2 (max2 a) (min2 a)).
  Definition AABB2D_CornerPoint (a : aabb2 T) (i : nat) : v2 T :=
    match i with
    | 1%nat => V2 (x2 (min2 a)) (y2 (max2 a))
    | 2%nat => V2 (x2 (max2 a)) (y2 (min2 a))
    | 3%nat => max2 a
    | _ => min2 a
    end.
  Definition AABB2D_Translated (a : aabb2 T) (d : v2 T) : aabb2 T := Box2 (add2 (min2 a) d) (add2 (max2 a) d).
  Definition AABB2D_TranslatedBack (a : aabb2 T) (d : v2 T) : aabb2 T := Box2 (sub2 (min2 a) d) (sub2 (max2 a) d).
  (** AABB2D.h:208-228 [AABB2DTransformAsAABB2D]: m00 m01 m03 / m10 m11 m13 are the elements read. *)
  Definition AABB2D_TransformAsAABB (b : aabb2 T) (m00 m01 m03 m10 m11 m13 : T) : aabb2 T :=
    let ax := m00 * x2 (min2 b) in let bx := m00 * x2 (max2 b) in
    let ay := m01 * y2 (min2 b) in let by_ := m01 * y2 (max2 b) in
    let ax2 := m10 * x2 (min2 b) in let bx2 := m10 * x2 (max2 b) in
    let ay2 := m11 * y2 (min2 b) in let by2 := m11 * y2 (max2 b) in
    Box2 (V2 (Min ax bx + Min ay by_ + m03) (Min ax2 bx2 + Min ay2 by2 + m13))
         (V2 (Max ax bx + Max ay by_ + m03) (Max ax2 bx2 + Max ay2 by2 + m13)).
End Vec2.
