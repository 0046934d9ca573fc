(** Rotations: Quat (src/Math/Quat.h, Quat.cpp), the rotation part of src/Math/Matrix.inl and of float3x3, float3x4 and
    float4x4, and the trigonometric members of float2 and float3.

    Modelled: the scalar (non-SIMD) path.  Not modelled: strings, streams, RandomRotation, the float4 overloads (they
    call the float3 ones on the x, y, z part in the scalar path). *)
From Coq Require Import ZArith Reals Bool.
From Verif Require Import Num ScalarModel Vec3Model GeoTypes AabbModel GMatModel MatModel Vec2Model.
Open Scope num_scope.

(** sinf, cosf, asinf, acosf, atanf, atan2f of the C library (MathFunc.cpp:153-295: Sin, Cos, SinCos, Asin, Acos, Atan,
    Atan2 without lookup table and without SSE call them), and MathConstants.h [pi].  Only the reals are an instance:
    the C library's binary32 results are not specified bit by bit. *)
Class NumTrig (T : Type) `{Num T} : Type := {
  nsin : T -> T; ncos : T -> T; nasin : T -> T; nacos : T -> T; natan2 : T -> T -> T; npi : T
}.

(** atan2 of the C standard (7.12.4.4), over the reals. *)
Definition Ratan2 (y x : R) : R :=
  (if Rlt_dec 0 x then atan (y / x)
   else if Rlt_dec x 0 then (if Rle_dec 0 y then atan (y / x) + PI else atan (y / x) - PI)
   else if Rlt_dec 0 y then PI / 2 else if Rlt_dec y 0 then - (PI / 2) else 0)%R.
Global Instance NumTrig_R : NumTrig R := {
  nsin := sin; ncos := cos; nasin := asin; nacos := acos; natan2 := Ratan2; npi := PI
}.

Section Rot.
  Context {T : Type} `{TT : NumTrig T}.
  Implicit Types (m : mat3 T) (v : vec T) (q r : quat T).

  (** Matrix.inl:31-41 [Set3x3PartRotateX], 47-57 [Y], 63-73 [Z]; float3x3.cpp:60-78 [RotateX] etc. *)
  Definition RotateX (angle : T) : mat3 T :=
    let sinz := nsin angle in let cosz := ncos angle in mk3 n1 n0 n0 n0 cosz (- sinz) n0 sinz cosz.
  Definition RotateY (angle : T) : mat3 T :=
    let sinz := nsin angle in let cosz := ncos angle in mk3 cosz n0 sinz n0 n1 n0 (- sinz) n0 cosz.
  Definition RotateZ (angle : T) : mat3 T :=
    let sinz := nsin angle in let cosz := ncos angle in mk3 cosz (- sinz) n0 sinz cosz n0 n0 n0 n1.

  (** Matrix.inl:78-91 [Set3x3PartRotateEulerXYZ], 129-142 XZY, 180-193 YXZ, 231-244 YZX, 282-295 ZXY, 333-346 ZYX;
      float3x3.cpp:231-277 [FromEulerXYZ] etc. call them on the same arguments. *)
  Definition FromEulerXYZ (x y z : T) : mat3 T :=
    let cx := ncos x in let sx := nsin x in let cy := ncos y in let sy := nsin y in let cz := ncos z in let sz := nsin z in
    mk3 (cy*cz) (- cy * sz) sy
        (cz*sx*sy + cx*sz) (cx*cz - sx*sy*sz) (- cy*sx)
        (- cx*cz*sy + sx*sz) (cz*sx + cx*sy*sz) (cx*cy).
  Definition FromEulerXZY (x z y : T) : mat3 T :=
    let cx := ncos x in let sx := nsin x in let cy := ncos y in let sy := nsin y in let cz := ncos z in let sz := nsin z in
    mk3 (cy*cz) (- sz) (cz*sy)
        (sx*sy + cx*cy*sz) (cx*cz) (- cy*sx + cx*sy*sz)
        (- cx*sy + cy*sx*sz) (cz*sx) (cx*cy + sx*sy*sz).
  Definition FromEulerYXZ (y x z : T) : mat3 T :=
    let cx := ncos x in let sx := nsin x in let cy := ncos y in let sy := nsin y in let cz := ncos z in let sz := nsin z in
    mk3 (cy*cz + sx*sy*sz) (cz*sx*sy - cy*sz) (cx*sy)
        (cx*sz) (cx*cz) (- sx)
        (- cz*sy + cy*sx*sz) (cy*cz*sx + sy*sz) (cx*cy).
  Definition FromEulerYZX (y z x : T) : mat3 T :=
    let cx := ncos x in let sx := nsin x in let cy := ncos y in let sy := nsin y in let cz := ncos z in let sz := nsin z in
    mk3 (cy*cz) (sx*sy - cx*cy*sz) (cx*sy + cy*sx*sz)
        sz (cx*cz) (- cz*sx)
        (- cz*sy) (cy*sx + cx*sy*sz) (cx*cy - sx*sy*sz).
  Definition FromEulerZXY (z x y : T) : mat3 T :=
    let cx := ncos x in let sx := nsin x in let cy := ncos y in let sy := nsin y in let cz := ncos z in let sz := nsin z in
    mk3 (cy*cz - sx*sy*sz) (- cx*sz) (cz*sy + cy*sx*sz)
        (cz*sx*sy + cy*sz) (cx*cz) (- cy*cz*sx + sy*sz)
        (- cx*sy) sx (cx*cy).
  Definition FromEulerZYX (z y x : T) : mat3 T :=
    let cx := ncos x in let sx := nsin x in let cy := ncos y in let sy := nsin y in let cz := ncos z in let sz := nsin z in
    mk3 (cy*cz) (cz*sx*sy - cx*sz) (cx*cz*sy + sx*sz)
        (cy*sz) (cx*cz + sx*sy*sz) (- cz*sx + cx*sy*sz)
        (- sy) (cy*sx) (cx*cy).
  (** Matrix.inl:384-397 [Set3x3PartRotateEulerXYX], 435-448 XZX, 486-499 YXY, 537-550 YZY, 588-601 ZXZ, 639-652 ZYZ;
      float3x3.cpp:183-229 [FromEulerXYX] etc. *)
  Definition FromEulerXYX (a2 y a1 : T) : mat3 T :=
    let cx2 := ncos a2 in let sx2 := nsin a2 in let cy := ncos y in let sy := nsin y in let cx1 := ncos a1 in let sx1 := nsin a1 in
    mk3 cy (sy*sx1) (sy*cx1)
        (sy*sx2) (cx2*cx1 - cy*sx2*sx1) (- cy*cx1*sx2 - cx2*sx1)
        (- sy*cx2) (cx1*sx2 + cy*cx2*sx1) (cy*cx2*cx1 - sx2*sx1).
  Definition FromEulerXZX (a2 z a1 : T) : mat3 T :=
    let cx2 := ncos a2 in let sx2 := nsin a2 in let cz := ncos z in let sz := nsin z in let cx1 := ncos a1 in let sx1 := nsin a1 in
    mk3 cz (- sz*cx1) (sz*sx1)
        (sz*cx2) (cz*cx2*cx1 - sx2*sx1) (- cx1*sx2 - cz*cx2*sx1)
        (sz*sx2) (cz*cx1*sx2 + cx2*sx1) (cx2*cx1 - cz*sx2*sx1).
  Definition FromEulerYXY (a2 x a1 : T) : mat3 T :=
    let cy2 := ncos a2 in let sy2 := nsin a2 in let cx := ncos x in let sx := nsin x in let cy1 := ncos a1 in let sy1 := nsin a1 in
    mk3 (cy2*cy1 - cx*sy2*sy1) (sx*sy2) (cx*cy1*sy2 + cy2*sy1)
        (sx*sy1) cx (- sx*cy1)
        (- cy1*sy2 - cx*cy2*sy1) (sx*cy2) (cx*cy2*cy1 - sy2*sy1).
  Definition FromEulerYZY (a2 z a1 : T) : mat3 T :=
    let cy2 := ncos a2 in let sy2 := nsin a2 in let cz := ncos z in let sz := nsin z in let cy1 := ncos a1 in let sy1 := nsin a1 in
    mk3 (cz*cy2*cy1 - sy2*sy1) (- sz*cy2) (cy1*sy2 + cz*cy2*sy1)
        (sz*cy1) cz (sz*sy1)
        (- cz*cy1*sy2 - cy2*sy1) (sz*sy2) (cy2*cy1 - cz*sy2*sy1).
  Definition FromEulerZXZ (a2 x a1 : T) : mat3 T :=
    let cz2 := ncos a2 in let sz2 := nsin a2 in let cx := ncos x in let sx := nsin x in let cz1 := ncos a1 in let sz1 := nsin a1 in
    mk3 (cz2*cz1 - cx*sz2*sz1) (- cx*cz1*sz2 - cz2*sz1) (sx*sz2)
        (cz1*sz2 + cx*cz2*sz1) (cx*cz2*cz1 - sz2*sz1) (- sx*cz2)
        (sx*sz1) (sx*cz1) cx.
  Definition FromEulerZYZ (a2 y a1 : T) : mat3 T :=
    let cz2 := ncos a2 in let sz2 := nsin a2 in let cy := ncos y in let sy := nsin y in let cz1 := ncos a1 in let sz1 := nsin a1 in
    mk3 (cy*cz2*cz1 - sz2*sz1) (- cz1*sz2 - cy*cz2*sz1) (sy*cz2)
        (cy*cz1*sz2 + cz2*sz1) (cz2*cz1 - cy*sz2*sz1) (sy*sz2)
        (- sy*cz1) (sy*sz1) cy.

  (** The element m[i][j]. *)
  Definition m00 m : T := vx (row0 m). Definition m01 m : T := vy (row0 m). Definition m02 m : T := vz (row0 m).
  Definition m10 m : T := vx (row1 m). Definition m11 m : T := vy (row1 m). Definition m12 m : T := vz (row1 m).
  Definition m20 m : T := vx (row2 m). Definition m21 m : T := vy (row2 m). Definition m22 m : T := vz (row2 m).
  (** Matrix.inl:97-123 [ExtractEulerXYZ], 148-174 XZY, 199-225 YXZ, 250-276 YZX, 301-327 ZXY, 352-378 ZYX;
      float3x3.cpp:1461-1466 [ToEulerXYZ] etc.: the three angles in the order of the name. *)
  Definition ToEulerXYZ m : vec T :=
    if m02 m <? n1 then
      if m02 m >? - n1 then V3 (natan2 (- m12 m) (m22 m)) (nasin (m02 m)) (natan2 (- m01 m) (m00 m))
      else V3 (- natan2 (m10 m) (m11 m)) (- npi / n2) n0
    else V3 (natan2 (m10 m) (m11 m)) (npi / n2) n0.
  Definition ToEulerXZY m : vec T :=
    if m01 m <? n1 then
      if m01 m >? - n1 then V3 (natan2 (m21 m) (m11 m)) (nasin (- m01 m)) (natan2 (m02 m) (m00 m))
      else V3 (- natan2 (- m20 m) (m22 m)) (npi / n2) n0
    else V3 (natan2 (- m20 m) (m22 m)) (- npi / n2) n0.
  Definition ToEulerYXZ m : vec T :=
    if m12 m <? n1 then
      if m12 m >? - n1 then V3 (natan2 (m02 m) (m22 m)) (nasin (- m12 m)) (natan2 (m10 m) (m11 m))
      else V3 (- natan2 (- m01 m) (m00 m)) (npi / n2) n0
    else V3 (natan2 (- m01 m) (m00 m)) (- npi / n2) n0.
  Definition ToEulerYZX m : vec T :=
    if m10 m <? n1 then
      if m10 m >? - n1 then V3 (natan2 (- m20 m) (m00 m)) (nasin (m10 m)) (natan2 (- m12 m) (m11 m))
      else V3 (- natan2 (m21 m) (m22 m)) (- npi / n2) n0
    else V3 (natan2 (m21 m) (m22 m)) (npi / n2) n0.
  Definition ToEulerZXY m : vec T :=
    if m21 m <? n1 then
      if m21 m >? - n1 then V3 (natan2 (- m01 m) (m11 m)) (nasin (m21 m)) (natan2 (- m20 m) (m22 m))
      else V3 (- natan2 (m02 m) (m00 m)) (- npi / n2) n0
    else V3 (natan2 (m02 m) (m00 m)) (npi / n2) n0.
  Definition ToEulerZYX m : vec T :=
    if m20 m <? n1 then
      if m20 m >? - n1 then V3 (natan2 (m10 m) (m00 m)) (nasin (- m20 m)) (natan2 (m21 m) (m22 m))
      else V3 (- natan2 (- m12 m) (m11 m)) (npi / n2) n0
    else V3 (natan2 (- m12 m) (m11 m)) (- npi / n2) n0.
  (** Matrix.inl:403-429 [ExtractEulerXYX], 454-480 XZX, 505-531 YXY, 556-582 YZY, 607-633 ZXZ, 658-684 ZYZ;
      float3x3.cpp:1455-1460. *)
  Definition ToEulerXYX m : vec T :=
    if m00 m <? n1 then
      if m00 m >? - n1 then V3 (natan2 (m10 m) (- m20 m)) (nacos (m00 m)) (natan2 (m01 m) (m02 m))
      else V3 (- natan2 (- m12 m) (m11 m)) npi n0
    else V3 (natan2 (- m12 m) (m11 m)) n0 n0.
  Definition ToEulerXZX m : vec T :=
    if m00 m <? n1 then
      if m00 m >? - n1 then V3 (natan2 (m20 m) (m10 m)) (nacos (m00 m)) (natan2 (m02 m) (- m01 m))
      else V3 (- natan2 (m21 m) (m22 m)) npi n0
    else V3 (natan2 (m21 m) (m22 m)) n0 n0.
  Definition ToEulerYXY m : vec T :=
    if m11 m <? n1 then
      if m11 m >? - n1 then V3 (natan2 (m01 m) (m21 m)) (nacos (m11 m)) (natan2 (m10 m) (- m12 m))
      else V3 (- natan2 (m02 m) (m00 m)) npi n0
    else V3 (natan2 (m02 m) (m00 m)) n0 n0.
  Definition ToEulerYZY m : vec T :=
    if m11 m <? n1 then
      if m11 m >? - n1 then V3 (natan2 (m21 m) (- m01 m)) (nacos (m11 m)) (natan2 (m12 m) (m10 m))
      else V3 (- natan2 (- m20 m) (m22 m)) npi n0
    else V3 (natan2 (- m20 m) (m22 m)) n0 n0.
  Definition ToEulerZXZ m : vec T :=
    if m22 m <? n1 then
      if m22 m >? - n1 then V3 (natan2 (m02 m) (- m12 m)) (nacos (m22 m)) (natan2 (m20 m) (m21 m))
      else V3 (- natan2 (- m01 m) (m00 m)) npi n0
    else V3 (natan2 (- m01 m) (m00 m)) n0 n0.
  Definition ToEulerZYZ m : vec T :=
    if m22 m <? n1 then
      if m22 m >? - n1 then V3 (natan2 (m12 m) (m02 m)) (nacos (m22 m)) (natan2 (m21 m) (- m20 m))
      else V3 (- natan2 (m10 m) (m11 m)) npi n0
    else V3 (natan2 (m10 m) (m11 m)) n0 n0.

  (** Matrix.inl:691-712 [SetRotationAxis3x3]; float3x3.cpp:80-85 [RotateAxisAngle]. *)
  Definition RotateAxisAngle (a : vec T) (angle : T) : mat3 T :=
    let s := nsin angle in let c := ncos angle in let c1 := n1 - c in
    mk3 (c + c1*vx a*vx a) (c1*vx a*vy a - s*vz a) (c1*vx a*vz a + s*vy a)
        (c1*vx a*vy a + s*vz a) (c + c1*vy a*vy a) (c1*vy a*vz a - s*vx a)
        (c1*vx a*vz a - s*vy a) (c1*vy a*vz a + s*vx a) (c + c1*vz a*vz a).
  (** float3x3.cpp:88-133 [RotateFromTo]. *)
  Definition RotateFromTo3 (sourceDirection targetDirection : vec T) : mat3 T :=
    let d := Dot sourceDirection targetDirection in
    if Abs d >? nlit 999%Z 1000%positive then
      let s := vAbs sourceDirection in
      let unit := if (vx s <? vy s) && (vx s <? vz s) then V3 n1 n0 n0 else if vy s <? vz s then V3 n0 n1 n0 else V3 n0 n0 n1 in
      let u := vsub unit sourceDirection in let v := vsub unit targetDirection in
      let uv := Dot u v in let uu := Dot u u in let vv := Dot v v in
      let a := - n2 / uu in let b := - n2 / vv in let c := a * b * uv in
      mk3 (n1 + a*vx u*vx u + b*vx v*vx v + c*vx v*vx u) (a*vx u*vy u + b*vx v*vy v + c*vx v*vy u) (a*vx u*vz u + b*vx v*vz v + c*vx v*vz u)
          (a*vy u*vx u + b*vy v*vx v + c*vy v*vx u) (n1 + a*vy u*vy u + b*vy v*vy v + c*vy v*vy u) (a*vy u*vz u + b*vy v*vz v + c*vy v*vz u)
          (a*vz u*vx u + b*vz v*vx v + c*vz v*vx u) (a*vz u*vy u + b*vz v*vy v + c*vz v*vy u) (n1 + a*vz u*vz u + b*vz v*vz v + c*vz v*vz u)
    else
      let v := Cross sourceDirection targetDirection in
      let h := (n1 - d) / Dot v v in
      let hvx := h * vx v in let hvy := h * vy v in let hvz := h * vz v in
      mk3 (hvx * vx v + d) (hvy * vx v - vz v) (hvz * vx v + vy v)
          (hvx * vy v + vz v) (hvy * vy v + d) (hvz * vy v - vx v)
          (hvx * vz v - vy v) (hvy * vz v + vx v) (hvz * vz v + d).

  (** Quat.cpp:123-130 [Dot], 132-139 [LengthSq], 141-148 [Length], 150-173 [Normalize]: new value and returned length
      (0 signals failure), 175-186 [Normalized], 188-191 [IsNormalized], 200-203 [Equals]. *)
  Definition QDot q r : T := qx q * qx r + qy q * qy r + qz q * qz r + qw q * qw r.
  Definition QLengthSq q : T := qx q * qx q + qy q * qy q + qz q * qz q + qw q * qw q.
  Definition QLength q : T := nsqrt (QLengthSq q).
  Definition QNormalize q : quat T * T :=
    let length := QLength q in
    if length <? nlit 1%Z 10000%positive then (q, n0)
    else let rcpLength := n1 / length in (Q4 (qx q * rcpLength) (qy q * rcpLength) (qz q * rcpLength) (qw q * rcpLength), length).
  Definition QNormalized q : quat T := fst (QNormalize q).
  Definition QIsNormalized q (epsilonSq : T) : bool := EqualAbs (QLengthSq q) n1 epsilonSq.
  Definition QEquals q r (epsilon : T) : bool :=
    EqualAbs (qx q) (qx r) epsilon && EqualAbs (qy q) (qy r) epsilon && EqualAbs (qz q) (qz r) epsilon && EqualAbs (qw q) (qw r) epsilon.
  (** Quat.cpp:214-219 [Inverse] and 221-226 [Inverted] are the conjugate, 228-232 [InverseAndNormalize], 234-252
      [Conjugate(d)]; 991 [identity]. *)
  Definition QConjugated q : quat T := Q4 (- qx q) (- qy q) (- qz q) (qw q).
  Definition QInverted q : quat T := QConjugated q.
  Definition QInverseAndNormalize q : quat T * T := QNormalize (QConjugated q).
  Definition QIdentity : quat T := Q4 n0 n0 n0 n1.
  (** Quat.cpp:871-913 [+], [-], unary [-], [*] and [/] with scalars, 945-958 [* Quat], 960-969 [/ Quat]. *)
  Definition QAdd q r : quat T := Q4 (qx q + qx r) (qy q + qy r) (qz q + qz r) (qw q + qw r).
  Definition QSub q r : quat T := Q4 (qx q - qx r) (qy q - qy r) (qz q - qz r) (qw q - qw r).
  Definition QNeg q : quat T := Q4 (- qx q) (- qy q) (- qz q) (- qw q).
  Definition QMulS q (s : T) : quat T := Q4 (qx q * s) (qy q * s) (qz q * s) (qw q * s).
  Definition QDivS q (s : T) : quat T := QMulS q (n1 / s).
  Definition QMul q r : quat T :=
    Q4 (qx q*qw r + qy q*qz r - qz q*qy r + qw q*qx r)
       (- qx q*qz r + qy q*qw r + qz q*qx r + qw q*qy r)
       (qx q*qy r - qy q*qx r + qz q*qw r + qw q*qz r)
       (- qx q*qx r - qy q*qy r - qz q*qz r + qw q*qw r).
  Definition QDiv q r : quat T :=
    Q4 (qx q*qw r - qy q*qz r + qz q*qy r - qw q*qx r)
       (qx q*qz r + qy q*qw r - qz q*qx r - qw q*qy r)
       (- qx q*qy r + qy q*qx r + qz q*qw r - qw q*qz r)
       (qx q*qx r + qy q*qy r + qz q*qz r + qw q*qw r).
  (** Matrix.inl:879-889 [SetMatrixRotatePart]; float3x3.cpp:55-58, 151-156 [FromQuat], Quat.cpp:742-745 [ToFloat3x3]. *)
  Definition FromQuat q : mat3 T :=
    let x := qx q in let y := qy q in let z := qz q in let w := qw q in
    mk3 (n1 - n2*(y*y + z*z)) (n2*(x*y - z*w)) (n2*(x*z + y*w))
        (n2*(x*y + z*w)) (n1 - n2*(x*x + z*z)) (n2*(y*z - x*w))
        (n2*(x*z - y*w)) (n2*(y*z + x*w)) (n1 - n2*(x*x + y*y)).
  (** Quat.cpp:254-264 [Transform], 266-273; 62-90 [WorldX], [WorldY], [WorldZ]. *)
  Definition QTransform q v : vec T := mulv (FromQuat q) v.
  Definition QWorldX q : vec T := QTransform q (V3 n1 n0 n0).
  Definition QWorldY q : vec T := QTransform q (V3 n0 n1 n0).
  Definition QWorldZ q : vec T := QTransform q (V3 n0 n0 n1).
  (** MathFunc.h:242-265 [RSqrt] (scalar: 1.f / sqrtf(x)). *)
  Definition RSqrt (x : T) : T := n1 / nsqrt x.
  (** Quat.cpp:92-116 [Axis], 118-121 [Angle], 418-430 [ToAxisAngle], 453-468 [SetFromAxisAngle], 619-637 [RotateX] etc. *)
  Definition QAxis q : vec T := vmuls (V3 (qx q) (qy q) (qz q)) (RSqrt (n1 - qw q * qw q)).
  Definition QAngle q : T := nacos (qw q) * n2.
  Definition QToAxisAngle q : vec T * T :=
    let halfAngle := nacos (qw q) in
    let rcpSinAngle := RSqrt (n1 - qw q * qw q) in
    (V3 (qx q * rcpSinAngle) (qy q * rcpSinAngle) (qz q * rcpSinAngle), halfAngle * n2).
  Definition QFromAxisAngle (axis : vec T) (angle : T) : quat T :=
    let sinz := nsin (angle * nhalf) in let cosz := ncos (angle * nhalf) in
    Q4 (vx axis * sinz) (vy axis * sinz) (vz axis * sinz) cosz.
  Definition QRotateX (angle : T) : quat T := QFromAxisAngle (V3 n1 n0 n0) angle.
  Definition QRotateY (angle : T) : quat T := QFromAxisAngle (V3 n0 n1 n0) angle.
  Definition QRotateZ (angle : T) : quat T := QFromAxisAngle (V3 n0 n0 n1) angle.
  (** Quat.cpp:490-536 [SetQuatFrom]; 538-576 [Set] for the three matrix types; float3x3.cpp:158-161 [ToQuat]. *)
  Definition QFromMat m : quat T :=
    let n4 := nlit 4%Z 1%positive in
    let rr := m00 m + m11 m + m22 m in
    QNormalized (
      if rr >? n0 then
        let w := nsqrt (rr + n1) * nhalf in let inv4w := n1 / (n4 * w) in
        Q4 ((m21 m - m12 m) * inv4w) ((m02 m - m20 m) * inv4w) ((m10 m - m01 m) * inv4w) w
      else if (m00 m >? m11 m) && (m00 m >? m22 m) then
        let x := nsqrt (n1 + m00 m - m11 m - m22 m) * nhalf in let x4 := n1 / (n4 * x) in
        Q4 x ((m01 m + m10 m) * x4) ((m02 m + m20 m) * x4) ((m21 m - m12 m) * x4)
      else if m11 m >? m22 m then
        let y := nsqrt (n1 + m11 m - m00 m - m22 m) * nhalf in let y4 := n1 / (n4 * y) in
        Q4 ((m01 m + m10 m) * y4) y ((m12 m + m21 m) * y4) ((m02 m - m20 m) * y4)
      else
        let z := nsqrt (n1 + m22 m - m00 m - m11 m) * nhalf in let z4 := n1 / (n4 * z) in
        Q4 ((m02 m + m20 m) * z4) ((m12 m + m21 m) * z4) z ((m10 m - m01 m) * z4)).
  (** Quat.cpp:639-657 [RotateFromTo]. *)
  Definition QRotateFromTo (sourceDirection targetDirection : vec T) : quat T :=
    let '(axis, oldLength) := Normalize (Cross sourceDirection targetDirection) in
    if negb (oldLength =? n0) then
      let halfCosAngle := nhalf * Dot sourceDirection targetDirection in
      let cosHalfAngle := nsqrt (nhalf + halfCosAngle) in
      let sinHalfAngle := nsqrt (nhalf - halfCosAngle) in
      Q4 (vx axis * sinHalfAngle) (vy axis * sinHalfAngle) (vz axis * sinHalfAngle) cosHalfAngle
    else Q4 n1 n0 n0 n0.
  (** Quat.cpp:614-617 [LookAt], 686-690 [RotateFromTo] with two direction pairs. *)
  Definition QLookAt (localForward targetDirection localUp worldUp : vec T) : quat T :=
    QFromMat (LookAt3 localForward targetDirection localUp worldUp).
  (** Quat.cpp:692-703 [FromEulerXYX] etc.: three elementary rotations, multiplied left to right and normalized. *)
  Definition QEuler (a b c : quat T) : quat T := QNormalized (QMul (QMul a b) c).
  Definition QFromEulerXYX (a b c : T) : quat T := QEuler (QRotateX a) (QRotateY b) (QRotateX c).
  Definition QFromEulerXZX (a b c : T) : quat T := QEuler (QRotateX a) (QRotateZ b) (QRotateX c).
  Definition QFromEulerYXY (a b c : T) : quat T := QEuler (QRotateY a) (QRotateX b) (QRotateY c).
  Definition QFromEulerYZY (a b c : T) : quat T := QEuler (QRotateY a) (QRotateZ b) (QRotateY c).
  Definition QFromEulerZXZ (a b c : T) : quat T := QEuler (QRotateZ a) (QRotateX b) (QRotateZ c).
  Definition QFromEulerZYZ (a b c : T) : quat T := QEuler (QRotateZ a) (QRotateY b) (QRotateZ c).
  Definition QFromEulerXYZ (a b c : T) : quat T := QEuler (QRotateX a) (QRotateY b) (QRotateZ c).
  Definition QFromEulerXZY (a b c : T) : quat T := QEuler (QRotateX a) (QRotateZ b) (QRotateY c).
  Definition QFromEulerYXZ (a b c : T) : quat T := QEuler (QRotateY a) (QRotateX b) (QRotateZ c).
  Definition QFromEulerYZX (a b c : T) : quat T := QEuler (QRotateY a) (QRotateZ b) (QRotateX c).
  Definition QFromEulerZXY (a b c : T) : quat T := QEuler (QRotateZ a) (QRotateX b) (QRotateY c).
  Definition QFromEulerZYX (a b c : T) : quat T := QEuler (QRotateZ a) (QRotateY b) (QRotateX c).
  (** Quat.cpp:286-296 [Lerp]. *)
  Definition QLerp q (b : quat T) (t : T) : quat T :=
    if QDot q b >=? n0 then QNormalized (QAdd (QMulS q (n1 - t)) (QMulS b t))
    else QNormalized (QAdd (QMulS q (t - n1)) (QMulS b t)).
  (** Quat.cpp:298-375 [Slerp] (scalar path, no lookup table).  The comparison with the double literal 0.999 is modelled
      as a comparison with the float literal. *)
  Definition slerp_acos (x : T) : T :=
    (nlit (-69813170079773212)%Z 100000000000000000%positive * x * x - nlit 87266462599716477%Z 100000000000000000%positive) * x
      + nlit 15707963267948966%Z 10000000000000000%positive.
  Definition slerp_sin (x : T) : T :=
    ((nlit 564311797634681035370%Z 100000000000000000000000%positive * (x * x) - nlit 155271410633428644799%Z 1000000000000000000000%positive) * (x * x)
      + nlit 987862135574673806965%Z 1000000000000000000000%positive) * x.
  Definition QSlerp q (q2 : quat T) (t : T) : quat T :=
    let angle0 := QDot q q2 in
    let neg := angle0 <? n0 in
    let angle1 := if neg then - angle0 else angle0 in
    let sign := if neg then - n1 else n1 in
    let '(a, b) :=
      if angle1 <? nlit 999%Z 1000%positive then
        let angle := slerp_acos angle1 in
        let ta := t * angle in
        (slerp_sin (angle - ta), slerp_sin ta)
      else (n1 - t, t) in
    QNormalized (QAdd (QMulS q (a * sign)) (QMulS q2 b)).
  (** Quat.cpp:377-387 [SlerpVector], 389-400 [SlerpVectorAbs], 402-408 [AngleBetween], 410-416 [AxisFromTo]. *)
  Definition SlerpVector (from to : vec T) (t : T) : vec T :=
    if t <=? n0 then from else if t >=? n1 then to
    else QTransform (QSlerp QIdentity (QRotateFromTo from to) t) from.
  Definition SlerpVectorAbs (from to : vec T) (angleRadians : T) : vec T :=
    if angleRadians <=? n0 then from else
    let q := QRotateFromTo from to in
    let a := QAngle q in
    if a <=? angleRadians then to
    else QTransform (QSlerp QIdentity q (angleRadians / a)) from.
  Definition QAngleBetween q (target : quat T) : T := QAngle (QNormalized (QDiv target q)).
  Definition QAxisFromTo q (target : quat T) : vec T := QAxis (QNormalized (QDiv target q)).

  (** float3x3.cpp:1211-1214, 1519-1523 (products with a Quat), float3x4.cpp:72-88 (constructors from a Quat), 138-175
      [RotateAxisAngle], [RotateFromTo], 180-191 [FromQuat], 193-196 [FromTRS]; float3x3.cpp:173-176 [FromRS], 1473-1483
      [Decompose] into a Quat. *)
  Definition mulm_q m q : mat3 T := mulm m (FromQuat q).
  Definition mulq_m q m : mat3 T := mulm (FromQuat q) m.
  Definition FromQuat34 q (t : vec T) : mat34 T := M34 (FromQuat q) t.
  Definition RotateAxisAngle34 (axis : vec T) (angle : T) : mat34 T := FromQuat34 (QFromAxisAngle axis angle) (V3 n0 n0 n0).
  Definition RotateFromTo34 (s t : vec T) : mat34 T := FromQuat34 (QRotateFromTo s t) (V3 n0 n0 n0).
  Definition FromTRSQ (t : vec T) q (s : vec T) : mat34 T := FromTRS t (FromQuat q) s.
  Definition FromRSQ q (s : vec T) : mat3 T := FromRS (FromQuat q) s.
  Definition DecomposeQ m : quat T * vec T := let '(rm, s) := Decompose3 m in (QFromMat rm, s).
  (** AABB.cpp:532-538 [TransformAsAABB(Quat)]. *)
  Definition AABB_TransformAsAABBQ (b : aabb T) q : aabb T :=
    let newCenter := QTransform q (AABB_CenterPoint b) in
    let newDir := vAbs (vmuls (QTransform q (AABB_Size b)) nhalf) in
    Box (vsub newCenter newDir) (vadd newCenter newDir).

  (** float3.cpp:650-659 [AngleBetween], 661-672 [AngleBetweenNorm]. *)
  Definition acosClamped (cosa : T) : T := if cosa >=? n1 then n0 else if cosa <=? - n1 then npi else nacos cosa.
  Definition AngleBetween (a b : vec T) : T := acosClamped (Dot a b / nsqrt (LengthSq a * LengthSq b)).
  Definition AngleBetweenNorm (a b : vec T) : T := acosClamped (Dot a b).
  (** float3.cpp:785-793 [SetFromSphericalCoordinates], 802-811 (unit radius), 820-830 [ToSphericalCoordinates], 832-838
      [ToSphericalCoordinatesNormalized]. *)
  Definition FromSpherical (azimuth inclination radius : T) : vec T :=
    let cx := ncos inclination in let s := nsin azimuth in let c := ncos azimuth in
    V3 (cx * s * radius) (- nsin inclination * radius) (cx * c * radius).
  Definition FromSphericalUnit (azimuth inclination : T) : vec T :=
    V3 (ncos inclination * nsin azimuth) (- nsin inclination) (ncos inclination * ncos azimuth).
  Definition ToSpherical v : vec T :=
    let '(w, len) := Normalize v in
    if len <=? nlit 1%Z 100000%positive then V3 n0 n0 n0
    else V3 (natan2 (vx w) (vz w)) (nasin (- vy w)) len.
  Definition ToSphericalNormalized v : v2 T := V2 (natan2 (vx v) (vz v)) (nasin (- vy v)).
  (** float2.cpp:85-98 [SetFromPolarCoordinates], 100-107 [ToPolarCoordinates], 109-113 [AimedAngle], 401-404
      [AngleBetween], 406-411 [AngleBetweenNorm]. *)
  Definition FromPolar (theta length : T) : v2 T := V2 (ncos theta * length) (nsin theta * length).
  Definition ToPolar (p : v2 T) : v2 T :=
    let radius := Length2 p in
    if radius >? nlit 1%Z 10000%positive then V2 (natan2 (y2 p) (x2 p)) radius else V2 n0 n0.
  Definition AimedAngle (p : v2 T) : T := natan2 (y2 p) (x2 p).
  Definition AngleBetween2 (a b : v2 T) : T := nacos (Dot2 a b) / nsqrt (LengthSq2 a * LengthSq2 b).
  Definition AngleBetweenNorm2 (a b : v2 T) : T := nacos (Dot2 a b).
End Rot.
