(** Model of float3 (/repo/src/Math/float3.h, float3.cpp), scalar code path. *)
From Coq Require Import ZArith Bool.
From Verif Require Import Num ScalarModel.

(** float3.h:60-75: the three members. *)
Record vec (T : Type) : Type := V3 { vx : T; vy : T; vz : T }.
Arguments V3 {T} _ _ _.
Arguments vx {T} _.
Arguments vy {T} _.
Arguments vz {T} _.

Section Vec3.
  Context {T : Type} `{NT : Num T}.
  Open Scope num_scope.

  (** float3.h:94-109 [operator []], [At]: 0, 1, anything else (index 2; the assert on the range is compiled out). *)
  Definition at3 (v : vec T) (i : nat) : T := match i with O => vx v | 1%nat => vy v | _ => vz v end.
  (** Assignment through [v[i] = x]. *)
  Definition set3 (v : vec T) (i : nat) (x : T) : vec T :=
    match i with O => V3 x (vy v) (vz v) | 1%nat => V3 (vx v) x (vz v) | _ => V3 (vx v) (vy v) x end.

  (** float3.cpp:896-905 +, 907-916 binary -, 918-927 unary -, 929-938 v*s, 940-949 s*v, 951-961 v/s
      (multiplication by the reciprocal), 975-1011 and 1079-1092 the in-place forms. *)
  Definition vadd (a b : vec T) : vec T := V3 (vx a + vx b) (vy a + vy b) (vz a + vz b).
  Definition vsub (a b : vec T) : vec T := V3 (vx a - vx b) (vy a - vy b) (vz a - vz b).
  Definition vneg (a : vec T) : vec T := V3 (- vx a) (- vy a) (- vz a).
  Definition vmuls (a : vec T) (s : T) : vec T := V3 (vx a * s) (vy a * s) (vz a * s).
  Definition smulv (s : T) (a : vec T) : vec T := V3 (s * vx a) (s * vy a) (s * vz a).
  Definition vdivs (a : vec T) (s : T) : vec T := let inv := n1 / s in V3 (vx a * inv) (vy a * inv) (vz a * inv).
  (** float3.cpp:1046-1055 [Mul], 1057-1066 [Div], 758-761 [FromScalar]. *)
  Definition vmul (a b : vec T) : vec T := V3 (vx a * vx b) (vy a * vy b) (vz a * vz b).
  Definition vdiv (a b : vec T) : vec T := V3 (vx a / vx b) (vy a / vy b) (vz a / vz b).
  Definition FromScalar (s : T) : vec T := V3 s s s.
  (** float3.cpp:1103 [zero], 1105-1107 the unit vectors. *)
  Definition vzero : vec T := V3 n0 n0 n0.
  Definition unitX : vec T := V3 n1 n0 n0.
  Definition unitY : vec T := V3 n0 n1 n0.
  Definition unitZ : vec T := V3 n0 n0 n1.

  (** float3.cpp:98-106 [LengthSq], 108-116 [Length]. *)
  Definition LengthSq (v : vec T) : T := vx v * vx v + vy v * vy v + vz v * vz v.
  Definition Length (v : vec T) : T := nsqrt (LengthSq v).
  (** float3.cpp:118-139 [Normalize]: new value and returned old length (0 signals failure), 141-156 [Normalized]. *)
  Definition Normalize (v : vec T) : vec T * T :=
    let length := Length v in
    if length >? nlit 1 1000000 then (vmuls v (n1 / length), length) else (V3 n1 n0 n0, n0).
  Definition Normalized (v : vec T) : vec T := fst (Normalize v).
  (** float3.cpp:158-173 [ScaleToLength], 175-182 [ScaledToLength]. *)
  Definition ScaleToLength (v : vec T) (newLength : T) : vec T * T :=
    let length := LengthSq v in
    if length <? nlit 1 1000000 then (V3 newLength n0 n0, n0)
    else
      let length := nsqrt length in
      let scalar := newLength / length in
      (V3 (vx v * scalar) (vy v * scalar) (vz v * scalar), length).
  Definition ScaledToLength (v : vec T) (newLength : T) : vec T := fst (ScaleToLength v newLength).
  (** float3.cpp:184-187 [IsNormalized], 189-192 [IsZero] (default epsilons float3.h:382, 386). *)
  Definition IsNormalized (v : vec T) (epsilonSq : T) : bool := Abs (LengthSq v - n1) <=? epsilonSq.
  Definition IsZero_eps (v : vec T) (epsilonSq : T) : bool := LengthSq v <=? epsilonSq.
  Definition IsZero (v : vec T) : bool := IsZero_eps v (nlit 1 10000000).

  (** float3.cpp:518-525 [Dot], 547-558 [Cross], 615-618 [ScalarTripleProduct]. *)
  Definition Dot (a b : vec T) : T := vx a * vx b + vy a * vy b + vz a * vz b.
  Definition Cross (a b : vec T) : vec T :=
    V3 (vy a * vz b - vz a * vy b) (vz a * vx b - vx a * vz b) (vx a * vy b - vy a * vx b).
  Definition ScalarTripleProduct (u v w : vec T) : T := Dot (Cross u v) w.
  (** float3.cpp:199-203 [IsPerpendicular], 205-208 [AreCollinear]. *)
  Definition IsPerpendicular (a b : vec T) (epsilonSq : T) : bool :=
    let dot := Dot a b in dot * dot <=? epsilonSq * LengthSq a * LengthSq b.
  Definition AreCollinear (p1 p2 p3 : vec T) (epsilonSq : T) : bool :=
    LengthSq (Cross (vsub p2 p1) (vsub p3 p1)) <=? epsilonSq.

  (** float3.cpp:324-363 element reductions. *)
  Definition SumOfElements (v : vec T) : T := vx v + vy v + vz v.
  Definition ProductOfElements (v : vec T) : T := vx v * vy v * vz v.
  Definition AverageOfElements (v : vec T) : T := (vx v + vy v + vz v) / nlit 3 1.
  Definition MinElement (v : vec T) : T := Min (Min (vx v) (vy v)) (vz v).
  Definition MaxElement (v : vec T) : T := Max (Max (vx v) (vy v)) (vz v).
  Definition MinElementIndex (v : vec T) : nat :=
    if (vx v <=? vy v) && (vx v <=? vz v) then 0%nat else if vy v <=? vz v then 1%nat else 2%nat.
  Definition MaxElementIndex (v : vec T) : nat :=
    if (vx v >=? vy v) && (vx v >=? vz v) then 0%nat else if vy v >=? vz v then 1%nat else 2%nat.

  (** float3.cpp:365-374 [Abs], 409-418 [Min], 431-440 [Max], 442-445 [Clamp], 447-455 scalar clamps. *)
  Definition vAbs (v : vec T) : vec T := V3 (Abs (vx v)) (Abs (vy v)) (Abs (vz v)).
  Definition vMin (a b : vec T) : vec T := V3 (Min (vx a) (vx b)) (Min (vy a) (vy b)) (Min (vz a) (vz b)).
  Definition vMax (a b : vec T) : vec T := V3 (Max (vx a) (vx b)) (Max (vy a) (vy b)) (Max (vz a) (vz b)).
  Definition vClamp (v floor ceil : vec T) : vec T := vMax (vMin v ceil) floor.
  Definition vClampS (v : vec T) (floor ceil : T) : vec T := vClamp v (FromScalar floor) (FromScalar ceil).
  Definition vClamp01 (v : vec T) : vec T := vClampS v n0 n1.
  (** float3.cpp:457-464 and 466-475 [ClampLength]. *)
  Definition ClampLength (v : vec T) (maxLength : T) : vec T :=
    let lenSq := LengthSq v in
    if lenSq >? maxLength * maxLength then vmuls v (maxLength / nsqrt lenSq) else v.
  Definition ClampLength2 (v : vec T) (minLength maxLength : T) : vec T :=
    let lenSq := LengthSq v in
    if lenSq >? maxLength * maxLength then vmuls v (maxLength / nsqrt lenSq)
    else if lenSq <? minLength * minLength then vmuls v (minLength / nsqrt lenSq)
    else v.
  (** float3.cpp:477-488 [DistanceSq], 498-506 [Distance]. *)
  Definition DistanceSq (a b : vec T) : T :=
    let dx := vx a - vx b in let dy := vy a - vy b in let dz := vz a - vz b in
    dx * dx + dy * dy + dz * dz.
  Definition Distance (a b : vec T) : T := nsqrt (DistanceSq a b).

  (** float3.cpp:569-580 [Perpendicular], 582-590 [AnotherPerpendicular]. *)
  Definition Perpendicular (v hint hint2 : vec T) : vec T :=
    let '(w, len) := Normalize (Cross v hint) in
    if len =? n0 then hint2 else w.
  Definition AnotherPerpendicular (v hint hint2 : vec T) : vec T :=
    Normalized (Cross v (Perpendicular v hint hint2)).
  (** float3.cpp:592-608 [PerpendicularBasis].  [copysignf(1,z)] is taken as the sign of the value
      (a negative zero counts as positive: the only difference). *)
  Definition PerpendicularBasis (v : vec T) : vec T * vec T :=
    let sign := if vz v >=? n0 then n1 else - n1 in
    let a := - n1 / (sign + vz v) in
    let b := vx v * vy v * a in
    (V3 (n1 + sign * vx v * vx v * a) (sign * b) (- sign * vx v), V3 b (sign + vy v * vy v * a) (- vy v)).

  (** float3.cpp:638-642 [ProjectTo], 644-648 [ProjectToNorm], 674-679 [Decompose], 681-685 [Lerp]. *)
  Definition ProjectTo (v direction : vec T) : vec T := vdivs (vmuls direction (Dot v direction)) (LengthSq direction).
  Definition ProjectToNorm (v direction : vec T) : vec T := vmuls direction (Dot v direction).
  Definition Decompose (v direction : vec T) : vec T * vec T :=
    let outParallel := ProjectToNorm v direction in (outParallel, vsub v outParallel).
  Definition vLerp (a b : vec T) (t : T) : vec T := vadd (smulv (n1 - t) a) (smulv t b).
  (** float3.cpp:620-624 [Reflect], 627-636 [Refract]. *)
  Definition Reflect (v normal : vec T) : vec T := vsub (smulv n2 (ProjectToNorm v normal)) v.
  Definition Refract (v normal : vec T) (negativeSideRefractionIndex positiveSideRefractionIndex : T) : vec T :=
    let n := negativeSideRefractionIndex / positiveSideRefractionIndex in
    let cosI := Dot v normal in
    let sinT2 := n * n * (n1 - cosI * cosI) in
    if sinT2 >? n1 then Reflect (vneg v) normal
    else vsub (smulv n v) (smulv (n + nsqrt (n1 - sinT2)) normal).

  (** float3.cpp:692-696 [Orthogonalize] of two, 698-707 of three: the new values of the reference arguments. *)
  Definition Orthogonalize2 (a b : vec T) : vec T := if negb (IsZero a) then vsub b (ProjectTo b a) else b.
  Definition Orthogonalize3 (a b c : vec T) : vec T * vec T :=
    let '(b, c) := if negb (IsZero a) then (vsub b (ProjectTo b a), vsub c (ProjectTo c a)) else (b, c) in
    (b, if negb (IsZero b) then vsub c (ProjectTo c b) else c).
  (** float3.cpp:721-728 and 730-741 [Orthonormalize]. *)
  Definition Orthonormalize2 (a b : vec T) : vec T * vec T :=
    let a := Normalized a in
    let b := vsub b (ProjectToNorm b a) in
    (a, Normalized b).
  Definition Orthonormalize3 (a b c : vec T) : vec T * vec T * vec T :=
    let a := Normalized a in
    let b := vsub b (ProjectToNorm b a) in
    let b := Normalized b in
    let c := vsub c (ProjectToNorm c a) in
    let c := vsub c (ProjectToNorm c b) in
    (a, b, Normalized c).
  (** float3.cpp:709-719 [AreOrthogonal], 743-756 [AreOrthonormal]. *)
  Definition AreOrthogonal3 (a b c : vec T) (epsilon : T) : bool :=
    IsPerpendicular a b epsilon && IsPerpendicular a c epsilon && IsPerpendicular b c epsilon.
  Definition AreOrthonormal3 (a b c : vec T) (epsilon : T) : bool :=
    IsPerpendicular a b epsilon && IsPerpendicular a c epsilon && IsPerpendicular b c epsilon &&
    IsNormalized a (epsilon * epsilon) && IsNormalized b (epsilon * epsilon) && IsNormalized c (epsilon * epsilon).
  (** float3.cpp:840-845 [Equals]. *)
  Definition vEquals (a b : vec T) (epsilon : T) : bool :=
    (Abs (vx a - vx b) <? epsilon) && (Abs (vy a - vy b) <? epsilon) && (Abs (vz a - vz b) <? epsilon).
End Vec3.

Declare Scope vec_scope.
Delimit Scope vec_scope with vec.
Notation "a + b" := (vadd a b) : vec_scope.
Notation "a - b" := (vsub a b) : vec_scope.
Notation "- a" := (vneg a) : vec_scope.
