(** float3x3, float3x4, float4x4 and the TranslateOp/ScaleOp products (/repo/src/Math/float3x3.cpp, float3x4.cpp,
    float4x4.cpp, TransformOps.cpp, Matrix.inl), scalar row-major build.  In-place functions are modelled as functions
    returning the new contents of *this (with the returned flag first when there is one). *)
From Coq Require Import List PeanoNat ZArith Bool.
From Verif Require Import Num ScalarModel Vec3Model GeoTypes GMatModel.
Import ListNotations.

(** float4.h: x, y, z, w; float4x4.h: four rows. *)
Record v4 (T : Type) := X4 { w0 : T; w1 : T; w2 : T; w3 : T }.
Arguments X4 {T}. Arguments w0 {T}. Arguments w1 {T}. Arguments w2 {T}. Arguments w3 {T}.
Record mat4 (T : Type) := M4 { r40 : v4 T; r41 : v4 T; r42 : v4 T; r43 : v4 T }.
Arguments M4 {T}. Arguments r40 {T}. Arguments r41 {T}. Arguments r42 {T}. Arguments r43 {T}.

Section Mat.
  Context {T : Type} `{NT : Num T}.
  Local Open Scope num_scope.
  Implicit Types (a b m : mat3 T) (v x : vec T).

  (** float3x3.h: the nine-argument and the three-column constructors; float3x3.cpp:412-440 Row, Col. *)
  Definition mk3 (a00 a01 a02 a10 a11 a12 a20 a21 a22 : T) : mat3 T := M3 (V3 a00 a01 a02) (V3 a10 a11 a12) (V3 a20 a21 a22).
  Definition ofCols (c0 c1 c2 : vec T) : mat3 T := mk3 (vx c0) (vx c1) (vx c2) (vy c0) (vy c1) (vy c2) (vz c0) (vz c1) (vz c2).
  Definition col0 m : vec T := V3 (vx (row0 m)) (vx (row1 m)) (vx (row2 m)).
  Definition col1 m : vec T := V3 (vy (row0 m)) (vy (row1 m)) (vy (row2 m)).
  Definition col2 m : vec T := V3 (vz (row0 m)) (vz (row1 m)) (vz (row2 m)).
  (** The elements A[row][col] as seen by the templates of Matrix.inl. *)
  Definition row3_at m (r : nat) : vec T := match r with O => row0 m | 1%nat => row1 m | _ => row2 m end.
  Definition g3 m : gmat T := fun r c => at3 (row3_at m r) c.
  Definition of_g3 (g : gmat T) : mat3 T :=
    mk3 (g 0%nat 0%nat) (g 0%nat 1%nat) (g 0%nat 2%nat) (g 1%nat 0%nat) (g 1%nat 1%nat) (g 1%nat 2%nat) (g 2%nat 0%nat) (g 2%nat 1%nat) (g 2%nat 2%nat).

  (** float3x3.cpp:1537 [identity]. *)
  Definition identity3 : mat3 T := mk3 n1 n0 n0 n0 n1 n0 n0 n0 n1.

  (** float3x3.cpp:694-713 [Determinant]. *)
  Definition Determinant m : T :=
    let a := vx (row0 m) in let b := vy (row0 m) in let c := vz (row0 m) in
    let d := vx (row1 m) in let e := vy (row1 m) in let f := vz (row1 m) in
    let g := vx (row2 m) in let h := vy (row2 m) in let i := vz (row2 m) in
    a * (e * i - f * h) + b * (f * g - d * i) + c * (d * h - e * g).
  (** float3x3.cpp:715-738 [DeterminantSymmetric]. *)
  Definition DeterminantSymmetric m : T :=
    let a := vx (row0 m) in let b := vy (row0 m) in let c := vz (row0 m) in
    let d := vy (row1 m) in let e := vz (row1 m) in let f := vz (row2 m) in
    a * (d * f - e * e) + b * (n2 * c * e - b * f) - c * c * d.

  (** float3x3.cpp:774-787 [Inverse]: *this is only replaced on success. *)
  Definition Inverse3 m (epsilon : T) : bool * mat3 T :=
    let '(success, i) := InverseMatrix 3 (g3 m) epsilon in
    if success then (true, of_g3 i) else (false, m).
  (** float3x3.cpp:933-938 [Inverted], with the default epsilon of float3x3.h:472 (1e-6). *)
  Definition Inverted3 m : mat3 T := snd (Inverse3 m (nlit 1%Z 1000000%positive)).

  (** float3x3.cpp:789-824 [InverseFast]. *)
  Definition InverseFast m (epsilon : T) : bool * mat3 T :=
    let d := Determinant m in
    if EqualAbs d n0 epsilon then (false, m)
    else
      let d := n1 / d in
      let a00 := vx (row0 m) in let a01 := vy (row0 m) in let a02 := vz (row0 m) in
      let a10 := vx (row1 m) in let a11 := vy (row1 m) in let a12 := vz (row1 m) in
      let a20 := vx (row2 m) in let a21 := vy (row2 m) in let a22 := vz (row2 m) in
      (true, mk3 (d * (a11 * a22 - a12 * a21)) (d * (a02 * a21 - a01 * a22)) (d * (a01 * a12 - a02 * a11))
                 (d * (a12 * a20 - a10 * a22)) (d * (a00 * a22 - a02 * a20)) (d * (a02 * a10 - a00 * a12))
                 (d * (a10 * a21 - a11 * a20)) (d * (a20 * a01 - a00 * a21)) (d * (a00 * a11 - a01 * a10))).

  (** float3x3.cpp:826-931 [SolveAxb]: [Some x] when it returns true.  Each row carries its right-hand side. *)
  Definition eqn : Type := (vec T * T)%type.
  Definition SolveAxb m (b : vec T) : option (vec T) :=
    let e0 := (row0 m, vx b) in let e1 := (row1 m, vy b) in let e2 := (row2 m, vz b) in
    let av00 := Abs (vx (row0 m)) in let av10 := Abs (vx (row1 m)) in let av20 := Abs (vx (row2 m)) in
    let '(e0, e1, e2) :=                                        (* 847-861 *)
      if (av10 >=? av00) && (av10 >=? av20) then (e1, e0, e2)
      else if av20 >=? av00 then (e2, e1, e0) else (e0, e1, e2) in
    let '(V3 v00 v01 v02, b0) := e0 in
    let '(V3 v10 v11 v12, b1) := e1 in
    let '(V3 v20 v21 v22, b2) := e2 in
    if EqualAbs v00 n0 (nlit 1%Z 1000%positive) then None else             (* 867 *)
    let denom := n1 / v00 in
    let v01 := v01 * denom in let v02 := v02 * denom in let b0 := b0 * denom in
    let v11 := v11 - v10 * v01 in let v12 := v12 - v10 * v02 in let b1 := b1 - v10 * b0 in
    let v21 := v21 - v20 * v01 in let v22 := v22 - v20 * v02 in let b2 := b2 - v20 * b0 in
    let '(v11, v12, b1, v21, v22, b2) :=                        (* 895-900 *)
      if Abs v21 >? Abs v11 then (v21, v22, b2, v11, v12, b1) else (v11, v12, b1, v21, v22, b2) in
    if EqualAbs v11 n0 (nlit 1%Z 1000%positive) then None else
    let denom := n1 / v11 in
    let v12 := v12 * denom in let b1 := b1 * denom in
    let v22 := v22 - v21 * v12 in let b2 := b2 - v21 * b1 in
    if EqualAbs v22 n0 (nlit 1%Z 1000%positive) then None else
    let x2 := b2 / v22 in
    let x1 := b1 - x2 * v12 in
    let x0 := b0 - x2 * v02 - x1 * v01 in
    Some (V3 x0 x1 x2).

  (** float3x3.cpp:1046-1058 [Transpose], [Transposed]. *)
  Definition Transposed3 m : mat3 T := M3 (col0 m) (col1 m) (col2 m).
  (** float3x3.cpp:447-464 [ScaleRow], [ScaleCol] for all three rows or columns at once. *)
  Definition ScaleRows m (s : vec T) : mat3 T :=
    let sc k v := V3 (vx v * k) (vy v * k) (vz v * k) in M3 (sc (vx s) (row0 m)) (sc (vy s) (row1 m)) (sc (vz s) (row2 m)).
  Definition ScaleCols m (s : vec T) : mat3 T :=
    let sc v := V3 (vx v * vx s) (vy v * vy s) (vz v * vz s) in M3 (sc (row0 m)) (sc (row1 m)) (sc (row2 m)).

  (** float3x3.cpp:940-966 [InverseColOrthogonal]. *)
  Definition InverseColOrthogonal m : bool * mat3 T :=
    let s1 := LengthSq (col0 m) in let s2 := LengthSq (col1 m) in let s3 := LengthSq (col2 m) in
    if (s1 <? nlit 1%Z 100000000%positive) || (s2 <? nlit 1%Z 100000000%positive) || (s3 <? nlit 1%Z 100000000%positive) then (false, m)
    else (true, ScaleRows (Transposed3 m) (V3 (n1 / s1) (n1 / s2) (n1 / s3))).
  (** float3x3.cpp:968-994 [InverseOrthogonalUniformScale]. *)
  Definition InverseOrthogonalUniformScale m : bool * mat3 T :=
    let scale := LengthSq (col0 m) in
    if scale <? nlit 1%Z 100000000%positive then (false, m)
    else let s := n1 / scale in (true, ScaleRows (Transposed3 m) (V3 s s s)).
  (** float3x3.cpp:996-1004 [InverseOrthonormal]. *)
  Definition InverseOrthonormal m : mat3 T := Transposed3 m.

  (** float3x3.cpp:1006-1044 [InverseSymmetric]. *)
  Definition InverseSymmetric m : bool * mat3 T :=
    let a := vx (row0 m) in let b := vy (row0 m) in let c := vz (row0 m) in
    let d := vy (row1 m) in let e := vz (row1 m) in let f := vz (row2 m) in
    let df_ee := d * f - e * e in let ce_bf := c * e - b * f in let be_dc := b * e - d * c in
    let det := a * df_ee + b * ce_bf + c * be_dc in
    if EqualAbs det n0 (nlit 1%Z 1000%positive) then (false, m)
    else
      let det := n1 / det in
      (true, mk3 (det * df_ee) (det * ce_bf) (det * be_dc)
                 (det * ce_bf) (det * (a * f - c * c)) (det * (c * b - a * e))
                 (det * be_dc) (det * (c * b - a * e)) (det * (a * d - b * b))).

  (** float3x3.cpp:1060-1073 [InverseTranspose], [InverseTransposed]; float3x3.h:472 default epsilon. *)
  Definition InverseTranspose m : bool * mat3 T :=
    let '(success, i) := Inverse3 m (nlit 1%Z 1000000%positive) in (success, Transposed3 i).
  Definition InverseTransposed m : mat3 T := Inverted3 (Transposed3 m).
  (** float3x3.cpp:1075-1078 [Trace]. *)
  Definition Trace3 m : T := vx (row0 m) + vy (row1 m) + vz (row2 m).
  (** float3x3.cpp:1080-1092 [Orthonormalize] with columns (0,1,2). *)
  Definition OrthonormalizeCols m : mat3 T :=
    let '(c0, c1, c2) := Orthonormalize3 (col0 m) (col1 m) (col2 m) in ofCols c0 c1 c2.
  (** float3x3.cpp:1094-1113 [RemoveScale]. *)
  Definition RemoveScale m : mat3 T := M3 (Normalized (row0 m)) (Normalized (row1 m)) (Normalized (row2 m)).

  (** float3x3.cpp:1125-1130 [TransformLeft]; 1216-1221 is GeoTypes.mulv. *)
  Definition TransformLeft m v : vec T :=
    V3 (vx v * vx (row0 m) + vy v * vx (row1 m) + vz v * vx (row2 m))
       (vx v * vy (row0 m) + vy v * vy (row1 m) + vz v * vy (row2 m))
       (vx v * vz (row0 m) + vy v * vz (row1 m) + vz v * vz (row2 m)).
  (** float3x3.cpp:1191-1209 [operator *]. *)
  Definition mulmRow v m : vec T :=
    V3 (vx v * vx (row0 m) + vy v * vx (row1 m) + vz v * vx (row2 m))
       (vx v * vy (row0 m) + vy v * vy (row1 m) + vz v * vy (row2 m))
       (vx v * vz (row0 m) + vy v * vz (row1 m) + vz v * vz (row2 m)).
  Definition mulm a b : mat3 T := M3 (mulmRow (row0 a) b) (mulmRow (row1 a) b) (mulmRow (row2 a) b).
  (** float3x3.cpp:1231-1308 scalar multiple, division (by the reciprocal), sum, difference, negation. *)
  Definition mscale m (s : T) : mat3 T := ScaleRows m (V3 s s s).
  Definition mdivs m (s : T) : mat3 T := mscale m (n1 / s).
  Definition madd a b : mat3 T := M3 (vadd (row0 a) (row0 b)) (vadd (row1 a) (row1 b)) (vadd (row2 a) (row2 b)).
  Definition msub a b : mat3 T := M3 (vsub (row0 a) (row0 b)) (vsub (row1 a) (row1 b)) (vsub (row2 a) (row2 b)).
  Definition mneg m : mat3 T := M3 (vneg (row0 m)) (vneg (row1 m)) (vneg (row2 m)).
  (** float3x3.cpp:1319-1327 [IsIdentity], 1343-1356 [IsInvertible], [IsSymmetric]. *)
  Definition vEq1 v (x y z epsilon : T) : bool := EqualAbs (vx v) x epsilon && EqualAbs (vy v) y epsilon && EqualAbs (vz v) z epsilon.
  Definition IsIdentity3 m (epsilon : T) : bool :=
    vEq1 (row0 m) n1 n0 n0 epsilon && vEq1 (row1 m) n0 n1 n0 epsilon && vEq1 (row2 m) n0 n0 n1 epsilon.
  Definition IsInvertible3 m (epsilon : T) : bool := negb (EqualAbs (Determinant m) n0 epsilon).
  Definition IsSymmetric3 m (epsilon : T) : bool :=
    EqualAbs (vy (row0 m)) (vx (row1 m)) epsilon && EqualAbs (vz (row0 m)) (vx (row2 m)) epsilon &&
    EqualAbs (vz (row1 m)) (vy (row2 m)) epsilon.
  (** float3x3.cpp:1468-1471 [ExtractScale], 1485-1502 [Decompose], 178-181 [FromRS]. *)
  Definition ExtractScale m : vec T := V3 (Length (col0 m)) (Length (col1 m)) (Length (col2 m)).
  Definition Decompose3 m : mat3 T * vec T :=
    let s := ExtractScale m in (ScaleCols m (V3 (n1 / vx s) (n1 / vy s) (n1 / vz s)), s).
  Definition FromRS (r : mat3 T) (s : vec T) : mat3 T := ScaleCols r s.
  (** float3x3.cpp:1374-1377 [HasNegativeScale]. *)
  Definition HasNegativeScale m : bool := Determinant m <? n0.

  (** float3x3.cpp:304-329 [ShearX], [ShearY], [ShearZ]. *)
  Definition ShearX (yFactor zFactor : T) : mat3 T := mk3 n1 yFactor zFactor n0 n1 n0 n0 n0 n1.
  Definition ShearY (xFactor zFactor : T) : mat3 T := mk3 n1 n0 n0 xFactor n1 zFactor n0 n0 n1.
  Definition ShearZ (xFactor yFactor : T) : mat3 T := mk3 n1 n0 n0 n0 n1 n0 xFactor yFactor n1.
  (** Matrix.inl:892-899 [SetMatrix3x3LinearPlaneMirror], 910-917 [SetMatrix3x3LinearPlaneProject] ("-2.f*y*x" is (-2*y)*x,
      "-y*x" is (-y)*x). *)
  Definition PlaneMirror3 (n : vec T) : mat3 T :=
    let x := vx n in let y := vy n in let z := vz n in
    mk3 (n1 - n2 * x * x) (- n2 * y * x) (- n2 * z * x)
        (- n2 * x * y) (n1 - n2 * y * y) (- n2 * y * z)
        (- n2 * x * z) (- n2 * y * z) (n1 - n2 * z * z).
  Definition PlaneProject3 (n : vec T) : mat3 T :=
    let x := vx n in let y := vy n in let z := vz n in
    mk3 (n1 - x * x) (- y * x) (- z * x)
        (- x * y) (n1 - y * y) (- y * z)
        (- x * z) (- y * z) (n1 - z * z).
  (** Matrix.inl:901-908, 919-926; float3x4.cpp:396-408 [Mirror], [OrthographicProjection]. *)
  Definition Mirror34 (p : plane T) : mat34 T :=
    let n := pnormal p in let d := pd p in M34 (PlaneMirror3 n) (V3 (n2 * d * vx n) (n2 * d * vy n) (n2 * d * vz n)).
  Definition OrthographicProjection34 (p : plane T) : mat34 T :=
    let n := pnormal p in let d := pd p in M34 (PlaneProject3 n) (V3 (d * vx n) (d * vy n) (d * vz n)).

  (** float3x3.cpp:608-669 [LookAt]. *)
  Definition LookAt3 (localForward targetDirection localUp worldUp : vec T) : mat3 T :=
    let localRight := Normalized (Cross localUp localForward) in
    let worldRight := Normalized (Cross worldUp targetDirection) in
    let perpWorldUp := Normalized (Cross targetDirection worldRight) in
    let m1 := ofCols worldRight perpWorldUp targetDirection in
    let m2 := M3 localRight localUp localForward in
    OrthonormalizeCols (mulm m1 m2).
  (** float3x4.cpp:795-802 [LookAt] with an eye and a target position. *)
  Definition LookAt34 (eyePos targetPos localForward localUp worldUp : vec T) : mat34 T :=
    M34 (LookAt3 localForward (Normalized (vsub targetPos eyePos)) localUp worldUp) eyePos.

  (** ** float3x4 *)
  Implicit Types (p q : mat34 T).
  Definition identity34 : mat34 T := M34 identity3 (V3 n0 n0 n0).
  (** float3x4.cpp:1143-1152 [TransformDir]; 1104-1113 [TransformPos] is GeoTypes.mulpos34. *)
  Definition muldir34 p v : vec T := mulv (lin34 p) v.
  (** float3x4.cpp:1252-1275 [operator *(float3x4)], 1229-1250 [operator *(float3x3)]; 1698-1702 float3x3 * float3x4. *)
  Definition mulm34 p q : mat34 T := M34 (mulm (lin34 p) (lin34 q)) (mulpos34 p (trans34 q)).
  Definition mulm34_3 p b : mat34 T := M34 (mulm (lin34 p) b) (trans34 p).
  Definition mulm3_34 a q : mat34 T := mulm34 (M34 a (V3 n0 n0 n0)) q.
  (** float3x4.cpp:850-870 [Determinant] (of the linear part, another expansion than float3x3's). *)
  Definition det3_sum m : T :=
    let a := vx (row0 m) in let b := vy (row0 m) in let c := vz (row0 m) in
    let d := vx (row1 m) in let e := vy (row1 m) in let f := vz (row1 m) in
    let g := vx (row2 m) in let h := vy (row2 m) in let i := vz (row2 m) in
    a * e * i + b * f * g + c * d * h - a * f * h - b * d * i - c * e * g.
  Definition Determinant34 p : T := det3_sum (lin34 p).
  (** float3x4.cpp:898-924 [InverseColOrthogonal]. *)
  Definition InverseColOrthogonal34 p : bool * mat34 T :=
    let m := lin34 p in
    let s1 := LengthSq (col0 m) in let s2 := LengthSq (col1 m) in let s3 := LengthSq (col2 m) in
    if (s1 <? nlit 1%Z 100000000%positive) || (s2 <? nlit 1%Z 100000000%positive) || (s3 <? nlit 1%Z 100000000%positive) then (false, p)
    else let r := ScaleRows (Transposed3 m) (V3 (n1 / s1) (n1 / s2) (n1 / s3)) in (true, M34 r (mulv r (vneg (trans34 p)))).
  (** float3x4.cpp:926-950 [InverseOrthogonalUniformScale]: transposes first (also when it then fails) and takes the scale
      from the first column of the transpose; float4x4.cpp:1370-1391 is the same code. *)
  Definition InverseOrthogonalUniformScale34 p : bool * mat34 T :=
    let m := Transposed3 (lin34 p) in
    let scale := LengthSq (col0 m) in
    if scale =? n0 then (false, M34 m (trans34 p))
    else let s := n1 / scale in let r := ScaleRows m (V3 s s s) in (true, M34 r (mulv r (vneg (trans34 p)))).
  (** float3x4.cpp:952-993 [InverseOrthonormal]; Matrix.inl:723-730 [InverseAffineMatrixNoScale]; float4x4.cpp:1393-1407. *)
  Definition InverseOrthonormal34 p : mat34 T :=
    let r := Transposed3 (lin34 p) in M34 r (mulv r (vneg (trans34 p))).
  (** Matrix.inl:732-745 [InverseAffineMatrixUniformScale], 747-761 [InverseAffineMatrixNonuniformScale]: templates without
      callers. *)
  Definition InverseAffineMatrixUniformScale p : mat34 T :=
    let m := Transposed3 (lin34 p) in
    let s := nsqrt (n1 / LengthSq (row0 m)) in
    let r := ScaleRows m (V3 s s s) in M34 r (mulv r (vneg (trans34 p))).
  Definition InverseAffineMatrixNonuniformScale p : mat34 T :=
    let m := Transposed3 (lin34 p) in
    let r := ScaleRows m (V3 (nsqrt (n1 / LengthSq (row0 m))) (nsqrt (n1 / LengthSq (row1 m))) (nsqrt (n1 / LengthSq (row2 m)))) in
    M34 r (mulv r (vneg (trans34 p))).
  (** float3x4.cpp:1172-1208: the contiguous and strided in-place batch transforms, as maps over the array. *)
  Definition BatchTransformPos34 p (pts : list (vec T)) : list (vec T) := map (mulpos34 p) pts.
  Definition BatchTransformDir34 p (pts : list (vec T)) : list (vec T) := map (mulpos34 p) pts.           (* 1191-1196: MulPos *)
  Definition BatchTransformDirStrided34 p (pts : list (vec T)) : list (vec T) := map (muldir34 p) pts.

  (** ** TranslateOp and ScaleOp (represented by their float3 members) *)
  (** TransformOps.cpp:49-56, 155-171: conversions to matrices. *)
  Definition TranslateOp34 v : mat34 T := M34 identity3 v.
  Definition ScaleOp3 v : mat3 T := mk3 (vx v) n0 n0 n0 (vy v) n0 n0 n0 (vz v).
  Definition ScaleOp34 v : mat34 T := M34 (ScaleOp3 v) (V3 n0 n0 n0).
  (** TransformOps.cpp:82-100. *)
  Definition TranslateTimes34 v p : mat34 T := M34 (lin34 p) (vadd (trans34 p) v).
  Definition TimesTranslate34 p v : mat34 T := M34 (lin34 p) (mulpos34 p v).
  (** TransformOps.cpp:183-227. *)
  Definition ScaleTimes3 v m : mat3 T := ScaleRows m v.
  Definition TimesScale3 m v : mat3 T := ScaleCols m v.
  Definition ScaleTimes34 v p : mat34 T := M34 (ScaleRows (lin34 p) v) (vmul (trans34 p) v).
  Definition TimesScale34 p v : mat34 T := M34 (ScaleCols (lin34 p) v) (trans34 p).
  (** TransformOps.cpp:262-282. *)
  Definition ScaleTranslate s t : mat34 T := M34 (ScaleOp3 s) (vmul s t).
  Definition TranslateScale t s : mat34 T := M34 (ScaleOp3 s) t.
  (** float3x4.cpp:198-201 [FromTRS]: (Translate(t) * float3x4(rotate)) * Scale(s). *)
  Definition FromTRS (t : vec T) (r : mat3 T) (s : vec T) : mat34 T := TimesScale34 (TranslateTimes34 t (M34 r (V3 n0 n0 n0))) s.
  (** float3x4.cpp:1652-1670 [Decompose]. *)
  Definition Decompose34 p : vec T * mat3 T * vec T := let '(r, s) := Decompose3 (lin34 p) in (trans34 p, r, s).
  (** float3x4.cpp:340-343 [Scale] about a centre; 350-353 [ScaleAlongAxis] (float3x3.cpp:289-292 the same). *)
  Definition ScaleAbout34 s c : mat34 T := TimesTranslate34 (TranslateScale c s) (vneg c).
  Definition ScaleAlongAxis3 axis (factor : T) : mat3 T := ScaleOp3 (vmuls axis factor).
  (** float3x4.cpp:107-110, 146-149 rotation about an axis through a point, from the rotation [r]. *)
  Definition AboutPoint34 (r : mat34 T) c : mat34 T := TimesTranslate34 (TranslateTimes34 c r) (vneg c).

  (** ** float4x4 *)
  Implicit Types (A B : mat4 T).
  Definition mk4 (a b c d : v4 T) : mat4 T := M4 a b c d.
  Definition at4 (v : v4 T) (c : nat) : T := match c with O => w0 v | 1%nat => w1 v | 2%nat => w2 v | _ => w3 v end.
  Definition row4_at A (r : nat) : v4 T := match r with O => r40 A | 1%nat => r41 A | 2%nat => r42 A | _ => r43 A end.
  Definition g4 A : gmat T := fun r c => at4 (row4_at A r) c.
  Definition of_g4 (g : gmat T) : mat4 T :=
    M4 (X4 (g 0%nat 0%nat) (g 0%nat 1%nat) (g 0%nat 2%nat) (g 0%nat 3%nat)) (X4 (g 1%nat 0%nat) (g 1%nat 1%nat) (g 1%nat 2%nat) (g 1%nat 3%nat))
       (X4 (g 2%nat 0%nat) (g 2%nat 1%nat) (g 2%nat 2%nat) (g 2%nat 3%nat)) (X4 (g 3%nat 0%nat) (g 3%nat 1%nat) (g 3%nat 2%nat) (g 3%nat 3%nat)).
  (** float4x4.cpp:2234 [identity]. *)
  Definition identity4 : mat4 T := M4 (X4 n1 n0 n0 n0) (X4 n0 n1 n0 n0) (X4 n0 n0 n1 n0) (X4 n0 n0 n0 n1).
  (** float4x4.cpp:1585-1595 [Transform]. *)
  Definition dot4 (a b : v4 T) : T := w0 a * w0 b + w1 a * w1 b + w2 a * w2 b + w3 a * w3 b.
  Definition Transform4 A (v : v4 T) : v4 T := X4 (dot4 (r40 A) v) (dot4 (r41 A) v) (dot4 (r42 A) v) (dot4 (r43 A) v).
  (** float4x4.cpp:2212-2223 float4 * float4x4. *)
  Definition TransformLeft4 (v : v4 T) A : v4 T :=
    let s i := w0 v * at4 (r40 A) i + w1 v * at4 (r41 A) i + w2 v * at4 (r42 A) i + w3 v * at4 (r43 A) i in
    X4 (s 0%nat) (s 1%nat) (s 2%nat) (s 3%nat).
  (** float4x4.cpp:1718-1746 [operator *]. *)
  Definition mulm4 A B : mat4 T :=
    M4 (TransformLeft4 (r40 A) B) (TransformLeft4 (r41 A) B) (TransformLeft4 (r42 A) B) (TransformLeft4 (r43 A) B).
  (** float4x4.cpp:1137-1175: conversions from float3x3 and float3x4; 769-782 parts. *)
  Definition x34 (v : vec T) (w : T) : v4 T := X4 (vx v) (vy v) (vz v) w.
  Definition of34 p : mat4 T :=
    let l := lin34 p in let t := trans34 p in
    M4 (x34 (row0 l) (vx t)) (x34 (row1 l) (vy t)) (x34 (row2 l) (vz t)) (X4 n0 n0 n0 n1).
  Definition of3 m : mat4 T := of34 (M34 m (V3 n0 n0 n0)).
  Definition xyz4 (v : v4 T) : vec T := V3 (w0 v) (w1 v) (w2 v).
  Definition Float3x4Part A : mat34 T := M34 (M3 (xyz4 (r40 A)) (xyz4 (r41 A)) (xyz4 (r42 A))) (V3 (w3 (r40 A)) (w3 (r41 A)) (w3 (r42 A))).
  (** float4x4.cpp:1689-1716 [operator *(float3x4)], 1660-1687 [operator *(float3x3)]. *)
  Definition mulRow4_34 (a : v4 T) q : v4 T :=
    let l := lin34 q in let t := trans34 q in
    X4 (w0 a * vx (row0 l) + w1 a * vx (row1 l) + w2 a * vx (row2 l))
       (w0 a * vy (row0 l) + w1 a * vy (row1 l) + w2 a * vy (row2 l))
       (w0 a * vz (row0 l) + w1 a * vz (row1 l) + w2 a * vz (row2 l))
       (w0 a * vx t + w1 a * vy t + w2 a * vz t + w3 a).
  Definition mulm4_34 A q : mat4 T := M4 (mulRow4_34 (r40 A) q) (mulRow4_34 (r41 A) q) (mulRow4_34 (r42 A) q) (mulRow4_34 (r43 A) q).
  Definition mulRow4_3 (a : v4 T) m : v4 T :=
    X4 (w0 a * vx (row0 m) + w1 a * vx (row1 m) + w2 a * vx (row2 m))
       (w0 a * vy (row0 m) + w1 a * vy (row1 m) + w2 a * vy (row2 m))
       (w0 a * vz (row0 m) + w1 a * vz (row1 m) + w2 a * vz (row2 m)) (w3 a).
  Definition mulm4_3 A m : mat4 T := M4 (mulRow4_3 (r40 A) m) (mulRow4_3 (r41 A) m) (mulRow4_3 (r42 A) m) (mulRow4_3 (r43 A) m).
  (** float4x4.cpp:2153-2181 float3x3 * float4x4, 2183-2210 float3x4 * float4x4. *)
  Definition mulm3_4 m B : mat4 T :=
    let r v := let s i := vx v * at4 (r40 B) i + vy v * at4 (r41 B) i + vz v * at4 (r42 B) i in X4 (s 0%nat) (s 1%nat) (s 2%nat) (s 3%nat) in
    M4 (r (row0 m)) (r (row1 m)) (r (row2 m)) (r43 B).
  Definition mulm34_4 p B : mat4 T :=
    let r v t := let s i := vx v * at4 (r40 B) i + vy v * at4 (r41 B) i + vz v * at4 (r42 B) i + t * at4 (r43 B) i in
                 X4 (s 0%nat) (s 1%nat) (s 2%nat) (s 3%nat) in
    let l := lin34 p in let t := trans34 p in
    M4 (r (row0 l) (vx t)) (r (row1 l) (vy t)) (r (row2 l) (vz t)) (r43 B).
  (** float4x4.cpp:1409-1437 [Transpose], [Transposed]. *)
  Definition Transposed4 A : mat4 T :=
    let c i := X4 (at4 (r40 A) i) (at4 (r41 A) i) (at4 (r42 A) i) (at4 (r43 A) i) in M4 (c 0%nat) (c 1%nat) (c 2%nat) (c 3%nat).
  (** float4x4.cpp:1274-1310 [SubMatrix] and [Minor] (SKIPNUM). *)
  Definition skipnum (val skip : nat) : nat := if Nat.leb skip val then S val else val.
  Definition SubMatrix A (i j : nat) : mat3 T :=
    let r0 := skipnum 0 i in let r1 := skipnum 1 i in let r2 := skipnum 2 i in
    let c0 := skipnum 0 j in let c1 := skipnum 1 j in let c2 := skipnum 2 j in
    mk3 (g4 A r0 c0) (g4 A r0 c1) (g4 A r0 c2) (g4 A r1 c0) (g4 A r1 c1) (g4 A r1 c2) (g4 A r2 c0) (g4 A r2 c1) (g4 A r2 c2).
  Definition Minor A (i j : nat) : T := det3_sum (SubMatrix A i j).
  (** float4x4.cpp:1244-1262 [Determinant3], 1264-1272 [Determinant4]. *)
  Definition Determinant3 A : T := det3_sum (lin34 (Float3x4Part A)).
  Definition Determinant4 A : T :=
    g4 A 0%nat 0%nat * Minor A 0 0 - g4 A 0%nat 1%nat * Minor A 0 1 + g4 A 0%nat 2%nat * Minor A 0 2 - g4 A 0%nat 3%nat * Minor A 0 3.
  (** float4x4.cpp:1312-1320 [Adjugate]. *)
  Definition Adjugate A : mat4 T := of_g4 (fun iy ix => if Nat.odd (ix + iy) then - Minor A iy ix else Minor A iy ix).
  (** float4x4.cpp:1327-1330 [LUDecompose], 1322-1325 [CholeskyDecompose], 1332-1341 [Inverse] (the contents are replaced even
      on failure), 1512-1539 [Pivot]. *)
  Definition LUDecompose A : bool * (mat4 T * mat4 T) :=
    let '(ok, (l, u)) := LUDecomposeMatrix 4 (g4 A) in (ok, (of_g4 l, of_g4 u)).
  Definition CholeskyDecompose A : bool * mat4 T := let '(ok, l) := CholeskyDecomposeMatrix 4 (g4 A) in (ok, of_g4 l).
  Definition Inverse4 A (epsilon : T) : bool * mat4 T := let '(ok, i) := InverseMatrix 4 (g4 A) epsilon in (ok, of_g4 i).
  Definition Pivot4 A : mat4 T := of_g4 (Pivot 4 (g4 A)).
  (** float3x4.cpp:872-884 [Inverse] (non-SSE): through float4x4. *)
  Definition Inverse34 p (epsilon : T) : bool * mat34 T := let '(ok, i) := Inverse4 (of34 p) epsilon in (ok, Float3x4Part i).
  (** float4x4.cpp:1541-1583 [TransformPos], [TransformDir]. *)
  Definition TransformPos4 A v : vec T := mulpos34 (Float3x4Part A) v.
  Definition TransformDir4 A v : vec T := muldir34 (Float3x4Part A) v.
  (** TransformOps.cpp:102-118, 229-260, and the conversions 58-66, 173-181. *)
  Definition setTranslate4 A v : mat4 T :=
    let s r t := X4 (w0 r) (w1 r) (w2 r) t in M4 (s (r40 A) (vx v)) (s (r41 A) (vy v)) (s (r42 A) (vz v)) (r43 A).
  Definition TranslateTimes4 v A : mat4 T := setTranslate4 A (vadd (trans34 (Float3x4Part A)) v).
  Definition TimesTranslate4 A v : mat4 T := setTranslate4 A (TransformPos4 A v).
  Definition ScaleTimes4 s A : mat4 T :=
    let f r k := X4 (w0 r * k) (w1 r * k) (w2 r * k) (w3 r * k) in M4 (f (r40 A) (vx s)) (f (r41 A) (vy s)) (f (r42 A) (vz s)) (r43 A).
  Definition TimesScale4 A s : mat4 T :=
    let f r := X4 (w0 r * vx s) (w1 r * vy s) (w2 r * vz s) (w3 r) in M4 (f (r40 A)) (f (r41 A)) (f (r42 A)) (f (r43 A)).
  (** float4x4.cpp:452-572: the eight projection matrices. *)
  Definition projMat (a b c d e : T) (f : T) : mat4 T := M4 (X4 a n0 n0 n0) (X4 n0 b n0 n0) (X4 n0 n0 c d) (X4 n0 n0 e f).
  Definition D3DOrthoProjLH (n f h v : T) : mat4 T := projMat (n2 / h) (n2 / v) (n1 / (f - n)) (n / (n - f)) n0 n1.
  Definition D3DOrthoProjRH (n f h v : T) : mat4 T := projMat (n2 / h) (n2 / v) (n1 / (n - f)) (n / (n - f)) n0 n1.
  Definition D3DPerspProjLH (n f h v : T) : mat4 T := projMat (n2 * n / h) (n2 * n / v) (f / (f - n)) (n * f / (n - f)) n1 n0.
  Definition D3DPerspProjRH (n f h v : T) : mat4 T := projMat (n2 * n / h) (n2 * n / v) (f / (n - f)) (n * f / (n - f)) (- n1) n0.
  Definition OpenGLOrthoProjLH (n f h v : T) : mat4 T := projMat (n2 / h) (n2 / v) (n2 / (f - n)) ((f + n) / (n - f)) n0 n1.
  Definition OpenGLOrthoProjRH (n f h v : T) : mat4 T := projMat (n2 / h) (n2 / v) (n2 / (n - f)) ((f + n) / (n - f)) n0 n1.
  Definition OpenGLPerspProjLH (n f h v : T) : mat4 T :=
    projMat (n2 * n / h) (n2 * n / v) ((n + f) / (f - n)) (n2 * n * f / (n - f)) n1 n0.
  Definition OpenGLPerspProjRH (n f h v : T) : mat4 T :=
    projMat (n2 * n / h) (n2 * n / v) ((n + f) / (n - f)) (n2 * n * f / (n - f)) (- n1) n0.
End Mat.
