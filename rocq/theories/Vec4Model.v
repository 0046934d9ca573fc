(** float4 (/repo/src/Math/float4.h, float4.cpp), scalar build.  In-place functions return the new vector, first, and what they return, second. *)
From Coq Require Import ZArith Bool List.
From Verif Require Import Num ScalarModel Vec3Model GeoTypes GMatModel MatModel RotModel Vec2Model.

Section Vec4.
  Context {T : Type} `{NT : Num T}.
  Local Open Scope num_scope.
  Implicit Types (a b c v : v4 T).

  (** float4.cpp:1276-1329, 1345-1400 the operators. *)
  Definition add4 a b : v4 T := X4 (w0 a + w0 b) (w1 a + w1 b) (w2 a + w2 b) (w3 a + w3 b).
  Definition sub4 a b : v4 T := X4 (w0 a - w0 b) (w1 a - w1 b) (w2 a - w2 b) (w3 a - w3 b).
  Definition neg4 a : v4 T := X4 (- w0 a) (- w1 a) (- w2 a) (- w3 a).
  Definition mul4s a (s : T) : v4 T := X4 (w0 a * s) (w1 a * s) (w2 a * s) (w3 a * s).
  Definition smul4 (s : T) a : v4 T := X4 (s * w0 a) (s * w1 a) (s * w2 a) (s * w3 a).

  (** float4.cpp:283-317 [LengthSq3, Length3, LengthSq4, Length4]. *)
  Definition LengthSq3 v : T := w0 v * w0 v + w1 v * w1 v + w2 v * w2 v.
  Definition Length3 v : T := nsqrt (LengthSq3 v).
  Definition LengthSq4 v : T := w0 v * w0 v + w1 v * w1 v + w2 v * w2 v + w3 v * w3 v.
  Definition Length4 v : T := nsqrt (LengthSq4 v).
  (** float4.cpp:319-343 [Normalize3]. *)
  Definition Normalize3 v : v4 T * T :=
    let lengthSq := LengthSq3 v in
    if lengthSq >? nlit 1%Z 1000000%positive then
      let length := nsqrt lengthSq in let inv := n1 / length in
      (X4 (w0 v * inv) (w1 v * inv) (w2 v * inv) (w3 v), length)
    else (X4 n1 n0 n0 (w3 v), n0).
  (** float4.cpp:359-379 [Normalize4]. *)
  Definition Normalize4 v : v4 T * T :=
    let lengthSq := LengthSq4 v in
    if lengthSq >? nlit 1%Z 1000000%positive then
      let length := nsqrt lengthSq in (mul4s v (n1 / length), length)
    else (X4 n1 n0 n0 n0, n0).
  (** float4.cpp:390-404 [NormalizeW]. *)
  Definition NormalizeW v : v4 T :=
    if Abs (w3 v) >? nlit 1%Z 1000000%positive then let inv := n1 / w3 v in X4 (w0 v * inv) (w1 v * inv) (w2 v * inv) n1 else v.
  (** float4.cpp:406-429 [IsWZeroOrOne, IsZero4, IsZero3, IsNormalized4, IsNormalized3]. *)
  Definition IsWZeroOrOne v (epsilon : T) : bool := EqualAbs (w3 v) n0 epsilon || EqualAbs (w3 v) n1 epsilon.
  Definition IsZero4 v (epsilonSq : T) : bool := LengthSq4 v <=? epsilonSq.
  Definition IsZero3 v (epsilonSq : T) : bool := LengthSq3 v <=? epsilonSq.
  Definition IsNormalized4 v (epsilonSq : T) : bool := Abs (LengthSq4 v - n1) <=? epsilonSq.
  Definition IsNormalized3 v (epsilonSq : T) : bool := Abs (LengthSq3 v - n1) <=? epsilonSq.
  (** float4.cpp:431-443 [Scale3], 445-459 [ScaleToLength3], 470-476 [ScaleToLength]. *)
  Definition Scale3 v (s : T) : v4 T := X4 (w0 v * s) (w1 v * s) (w2 v * s) (w3 v).
  Definition ScaleToLength3 v (newLength : T) : v4 T * T :=
    let lengthSq := LengthSq3 v in
    if lengthSq <? nlit 1%Z 1000000%positive then (v, n0)
    else let length := nsqrt lengthSq in (Scale3 v (newLength / length), length).
  Definition ScaleToLength4 v (newLength : T) : v4 T * T :=
    let length := Length4 v in (mul4s v (newLength / length), length).
  (** float4.cpp:787-812 [Dot3, Dot4] (Dot4 is MatModel.dot4). *)
  Definition Dot3 a b : T := w0 a * w0 b + w1 a * w1 b + w2 a * w2 b.
  (** float4.cpp:490-500 [IsPerpendicular3], [IsPerpendicular]: both use the four-component lengths. *)
  Definition IsPerpendicular3 a b (epsilonSq : T) : bool := let dot := Dot3 a b in dot * dot <=? epsilonSq * LengthSq4 a * LengthSq4 b.
  Definition IsPerpendicular4 a b (epsilonSq : T) : bool := let dot := dot4 a b in dot * dot <=? epsilonSq * LengthSq4 a * LengthSq4 b.
  (** float4.cpp:552-619 the element reductions; [MaxElement] takes the Min of z and w. *)
  Definition SumOfElements4 v : T := w0 v + w1 v + w2 v + w3 v.
  Definition ProductOfElements4 v : T := w0 v * w1 v * w2 v * w3 v.
  Definition AverageOfElements4 v : T := nlit 1%Z 4%positive * SumOfElements4 v.
  Definition MinElement4 v : T := Min (Min (w0 v) (w1 v)) (Min (w2 v) (w3 v)).
  Definition MaxElement4 v : T := Max (Max (w0 v) (w1 v)) (Min (w2 v) (w3 v)).
  Definition MinElementIndex4 v : nat :=
    if w0 v <? w1 v then (if w2 v <? w3 v then (if w0 v <? w2 v then 0%nat else 2%nat) else (if w0 v <? w3 v then 0%nat else 3%nat))
    else (if w2 v <? w3 v then (if w1 v <? w2 v then 1%nat else 2%nat) else (if w1 v <? w3 v then 1%nat else 3%nat)).
  Definition MaxElementIndex4 v : nat :=
    if w0 v >? w1 v then (if w2 v >? w3 v then (if w0 v >? w2 v then 0%nat else 2%nat) else (if w0 v >? w3 v then 0%nat else 3%nat))
    else (if w2 v >? w3 v then (if w1 v >? w2 v then 1%nat else 2%nat) else (if w1 v >? w3 v then 1%nat else 3%nat)).
  (** float4.cpp:621-742 the componentwise functions. *)
  Definition map4 (f : T -> T) v : v4 T := X4 (f (w0 v)) (f (w1 v)) (f (w2 v)) (f (w3 v)).
  Definition zip4 (f : T -> T -> T) a b : v4 T := X4 (f (w0 a) (w0 b)) (f (w1 a) (w1 b)) (f (w2 a) (w2 b)) (f (w3 a) (w3 b)).
  Definition Abs4 v : v4 T := map4 Abs v.
  Definition Neg3 v : v4 T := X4 (- w0 v) (- w1 v) (- w2 v) (w3 v).
  Definition Min4s v (ceil : T) : v4 T := map4 (fun x => Min x ceil) v.
  Definition Max4s v (floor : T) : v4 T := map4 (fun x => Max x floor) v.
  Definition Min4v a b : v4 T := zip4 Min a b.
  Definition Max4v a b : v4 T := zip4 Max a b.
  Definition Clamp4 v floor ceil : v4 T :=
    X4 (Clamp (w0 v) (w0 floor) (w0 ceil)) (Clamp (w1 v) (w1 floor) (w1 ceil)) (Clamp (w2 v) (w2 floor) (w2 ceil)) (Clamp (w3 v) (w3 floor) (w3 ceil)).
  Definition Clamp4s v (floor ceil : T) : v4 T := map4 (fun x => Clamp x floor ceil) v.
  (** float4.cpp:744-785 [Distance3Sq, Distance3, Distance4Sq, Distance4]. *)
  Definition Distance3Sq a b : T :=
    let dx := w0 a - w0 b in let dy := w1 a - w1 b in let dz := w2 a - w2 b in dx * dx + dy * dy + dz * dz.
  Definition Distance3 a b : T := nsqrt (Distance3Sq a b).
  Definition Distance4Sq a b : T :=
    let dx := w0 a - w0 b in let dy := w1 a - w1 b in let dz := w2 a - w2 b in let dw := w3 a - w3 b in dx * dx + dy * dy + dz * dz + dw * dw.
  Definition Distance4 a b : T := nsqrt (Distance4Sq a b).
  (** float4.cpp:835-858 [Cross3]. *)
  Definition Cross3 a b : v4 T :=
    X4 (w1 a * w2 b - w2 a * w1 b) (w2 a * w0 b - w0 a * w2 b) (w0 a * w1 b - w1 a * w0 b) n0.
  (** float4.cpp:860-868 [OuterProduct]. *)
  Definition OuterProduct4 a b : mat4 T := M4 (smul4 (w0 a) b) (smul4 (w1 a) b) (smul4 (w2 a) b) (smul4 (w3 a) b).
  (** float4.cpp:870-882 [Perpendicular3], 884-896 [Perpendicular], 898-910 [AnotherPerpendicular3, AnotherPerpendicular], 912-924 [PerpendicularBasis]. *)
  Definition Perpendicular34 v (hint hint2 : vec T) : v4 T :=
    let '(perp, len) := Normalize (xyz4 (Cross3 v (x34 hint n0))) in if len =? n0 then x34 hint2 n0 else x34 perp n0.
  Definition Perpendicular4 v hint hint2 : v4 T :=
    let '(perp, len) := Normalize4 (Cross3 v hint) in if len =? n0 then hint2 else perp.
  Definition AnotherPerpendicular34 v (hint hint2 : vec T) : v4 T := fst (Normalize3 (Cross3 v (Perpendicular34 v hint hint2))).
  Definition AnotherPerpendicular4 v hint hint2 : v4 T := fst (Normalize4 (Cross3 v (Perpendicular4 v hint hint2))).
  Definition PerpendicularBasis4 v : v4 T * v4 T := let '(b, c) := PerpendicularBasis (xyz4 v) in (x34 b n0, x34 c n0).
  (** float4.cpp:993-1019 [ProjectTo3, ProjectTo, ProjectToNorm3, ProjectToNorm]. *)
  Definition ProjectTo34 v (target : vec T) : v4 T := x34 (vdivs (vmuls target (Dot (xyz4 v) target)) (LengthSq target)) (w3 v).
  Definition ProjectTo4 v target : v4 T := mul4s target (dot4 v target / LengthSq4 target).
  Definition ProjectToNorm34 v (target : vec T) : v4 T := x34 (vmuls target (Dot (xyz4 v) target)) (w3 v).
  Definition ProjectToNorm4 v target : v4 T := mul4s target (dot4 v target).
  (** float4.cpp:931-943 [Reflect3, Reflect], 946-955 [Refract]. *)
  Definition Reflect34 v (normal : vec T) : v4 T := sub4 (smul4 n2 (ProjectToNorm34 v normal)) v.
  Definition Reflect4 v normal : v4 T := sub4 (smul4 n2 (ProjectToNorm4 v normal)) v.
  Definition Refract4 v normal (negativeSideRefractionIndex positiveSideRefractionIndex : T) : v4 T :=
    let n := negativeSideRefractionIndex / positiveSideRefractionIndex in
    let cosI := dot4 v normal in
    let sinT2 := n * n * (n1 - cosI * cosI) in
    if sinT2 >? n1 then Reflect4 (neg4 v) normal
    else sub4 (smul4 n v) (smul4 (n + nsqrt (n1 - sinT2)) normal).
  (** float4.cpp:1021-1024 [AreCollinear], 1026-1040 [Lerp]. *)
  Definition AreCollinear4 p1 p2 p3 (epsilon : T) : bool := LengthSq4 (Cross3 (sub4 p2 p1) (sub4 p3 p1)) <=? epsilon.
  Definition Lerp4 a b (t : T) : v4 T := add4 (smul4 (n1 - t) a) (smul4 t b).
  (** float4.cpp:1042-1052 [AreOrthogonal], 1054-1074 [Orthonormalize], 1076-1089 [AreOrthonormal]. *)
  Definition AreOrthogonal42 a b (epsilon : T) : bool := IsPerpendicular4 a b epsilon.
  Definition AreOrthogonal43 a b c (epsilon : T) : bool := IsPerpendicular4 a b epsilon && IsPerpendicular4 a c epsilon && IsPerpendicular4 b c epsilon.
  Definition Orthonormalize42 a b : v4 T * v4 T :=
    let a := fst (Normalize4 a) in
    let b := sub4 b (ProjectToNorm4 b a) in
    (a, fst (Normalize4 b)).
  Definition Orthonormalize43 a b c : v4 T * v4 T * v4 T :=
    let a := fst (Normalize4 a) in
    let b := sub4 b (ProjectToNorm4 b a) in
    let b := fst (Normalize4 b) in
    let c := sub4 c (ProjectToNorm4 c a) in
    let c := sub4 c (ProjectToNorm4 c b) in
    (a, b, fst (Normalize4 c)).
  Definition AreOrthonormal42 a b (epsilon : T) : bool :=
    IsPerpendicular4 a b epsilon && IsNormalized4 a (epsilon * epsilon) && IsNormalized4 b (epsilon * epsilon).
  Definition AreOrthonormal43 a b c (epsilon : T) : bool :=
    IsPerpendicular4 a b epsilon && IsPerpendicular4 a c epsilon && IsPerpendicular4 b c epsilon &&
    IsNormalized4 a (epsilon * epsilon) && IsNormalized4 b (epsilon * epsilon) && IsNormalized4 c (epsilon * epsilon).
  (** float4.cpp:1222-1236 [Equals]. *)
  Definition Equals4 a b (epsilon : T) : bool :=
    (Abs (w0 a - w0 b) <? epsilon) && (Abs (w1 a - w1 b) <? epsilon) && (Abs (w2 a - w2 b) <? epsilon) && (Abs (w3 a - w3 b) <? epsilon).
  (** float4.cpp:1402-1463 [Add, Sub, SubLeft, DivLeft, Mul, Div]. *)
  Definition Mul4 a b : v4 T := zip4 nmul a b.
  Definition Div4 a b : v4 T := zip4 ndiv a b.
  Definition AddS4 a (s : T) : v4 T := map4 (fun x => x + s) a.
  Definition SubS4 a (s : T) : v4 T := map4 (fun x => x - s) a.
  Definition SubLeft4 a (s : T) : v4 T := map4 (fun x => s - x) a.
  Definition DivLeft4 a (s : T) : v4 T := map4 (fun x => s / x) a.
End Vec4.

Section Angles.
  Context {T : Type} `{TT : NumTrig T}.
  Local Open Scope num_scope.
  Implicit Types (a b v : v4 T).
  (** float4.cpp:957-966 [AngleBetween3], 975-984 [AngleBetween4], 968-973, 986-991 [AngleBetweenNorm3, AngleBetweenNorm4]. *)
  Definition angleOf (cosa : T) : T := if cosa >=? n1 then n0 else if cosa <=? - n1 then npi else nacos cosa.
  Definition AngleBetween34 a b : T := angleOf (Dot3 a b / nsqrt (LengthSq3 a * LengthSq3 b)).
  Definition AngleBetween4 a b : T := angleOf (dot4 a b / nsqrt (LengthSq4 a * LengthSq4 b)).
  Definition AngleBetweenNorm34 a b : T := nacos (Dot3 a b).
  Definition AngleBetweenNorm4 a b : T := nacos (dot4 a b).
  (** float4.cpp:1165-1174 [SetFromSphericalCoordinates], 1183-1193 (unit radius), 1202-1212 [ToSphericalCoordinates], 1214-1220
      [ToSphericalCoordinatesNormalized]. *)
  Definition FromSpherical4 (azimuth inclination radius : T) : v4 T :=
    let cx := ncos inclination in X4 (cx * nsin azimuth * radius) (- nsin inclination * radius) (cx * ncos azimuth * radius) n0.
  Definition FromSphericalUnit4 (azimuth inclination : T) : v4 T :=
    X4 (ncos inclination * nsin azimuth) (- nsin inclination) (ncos inclination * ncos azimuth) n0.
  Definition ToSpherical4 v : vec T :=
    let '(n, len) := Normalize4 v in
    if len <=? nlit 1%Z 100000%positive then V3 n0 n0 n0 else V3 (natan2 (w0 n) (w2 n)) (nasin (- w1 n)) len.
  Definition ToSphericalNormalized4 v : v2 T := V2 (natan2 (w0 v) (w2 v)) (nasin (- w1 v)).
End Angles.
