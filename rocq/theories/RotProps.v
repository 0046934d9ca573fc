(** Theorems about rotations: quaternions (C35), conversion from matrices (C36), rotation between directions (C37),
    elementary, axis-angle and Euler rotations (C38), extracting Euler angles (C72), angles and spherical and polar
    coordinates (C73), interpolation (C74); and the quaternion overload of AABB::TransformAsAABB (C25). *)
From Coq Require Import Reals Lra Psatz List Bool.
From Verif Require Import Num NumR ScalarModel ScalarProofs Vec3Model GeoTypes GeoSpec GeoLemmas Vec3Props AabbModel
  GMatModel MatModel MatSpec MatProofs MatProofs2 MatProps Vec2Model Vec2Spec Vec2Props RotModel RotSpec
  RotProofs RotProofs2 RotProofs3 RotProofs4 RotProofs5.
Import ListNotations.
Open Scope R_scope.

(** * C35: quaternion rotations *)
Theorem C35_rotation (q : quat R) : unitq q ->
  rotation (QTransform q) /\ (forall v, QTransform q v = apply (FromQuat q) v) /\
  (forall v, apply34 (FromQuat34 q (V3 0 0 0)) v = QTransform q v) /\
  QWorldX q = QTransform q ex /\ QWorldY q = QTransform q ey /\ QWorldZ q = QTransform q ez.
Proof.
  intros U. split; [exact (quat_rotation q U)|]. split; [reflexivity|]. split; [|repeat split; reflexivity].
  intros v. unfold apply34, FromQuat34. cbn [lin34 trans34]. rewrite QTransform_apply. apply vec_ext; unfold plus; cbn [vx vy vz]; ring.
Qed.
Print Assumptions C35_rotation.
Theorem C35_composition (p q : quat R) (v : pt) : unitq p -> unitq q ->
  unitq (QMul p q) /\ QTransform (QMul p q) v = QTransform p (QTransform q v) /\
  unitq (QDiv p q) /\ QTransform (QDiv p q) v = QTransform p (QTransform (QInverted q) v) /\ QTransform QIdentity v = v.
Proof.
  intros P Q. assert (M : forall a b w, unitq a -> unitq b -> QTransform (QMul a b) w = QTransform a (QTransform b w)).
  { intros a b w A B. now rewrite !QTransform_apply, FromQuat_mul, mulm_apply by assumption. }
  split; [now apply qmul_unit|]. split; [now apply M|]. rewrite QDiv_R. split; [auto using qmul_unit, qconj_unit|].
  split; [apply M; auto using qconj_unit|]. now rewrite QTransform_apply, FromQuat_id, apply_id.
Qed.
Print Assumptions C35_composition.
Theorem C35_inverse (q : quat R) (v : pt) : unitq q ->
  QTransform q (QTransform (QInverted q) v) = v /\ QTransform (QInverted q) (QTransform q v) = v /\
  QMul q (QInverted q) = QIdentity /\ QMul (QInverted q) q = QIdentity.
Proof. intros U. destruct (QTransform_inv q v U), (qmul_conj q U). auto. Qed.
Print Assumptions C35_inverse.
(** The ring of quaternions: multiplication is associative, distributes and multiplies lengths; conjugation reverses it. *)
Theorem C35_algebra (p q r : quat R) (s : R) :
  QMul (QMul p q) r = QMul p (QMul q r) /\ QMul p (QAdd q r) = QAdd (QMul p q) (QMul p r) /\ QMul (QAdd p q) r = QAdd (QMul p r) (QMul q r) /\
  QLength (QMul p q) = QLength p * QLength q /\ QConjugated (QMul p q) = QMul (QConjugated q) (QConjugated p) /\
  QMul p QIdentity = p /\ QMul QIdentity p = p /\ QSub p q = QAdd p (QNeg q) /\ (s <> 0 -> QMulS (QDivS p s) s = p).
Proof.
  assert (E : forall a b c d a' b' c' d' : R, a = a' -> b = b' -> c = c' -> d = d' -> Q4 a b c d = Q4 a' b' c' d') by (intros; now subst).
  destruct p as [a b c d], q as [a1 b1 c1 d1], r as [a2 b2 c2 d2].
  split; [|split; [|split; [|split; [|split; [|split; [|split; [|split]]]]]]].
  1,2,3,5,6,7,8: unfold QMul, QAdd, QSub, QNeg, QConjugated, QIdentity; rsimpl; cbn [qx qy qz qw]; apply E; ring.
  - rewrite !QLength_R, qmul_norm, sqrt_mult by apply qn_pos. reflexivity.
  - intros S. unfold QMulS, QDivS, QMulS. rsimpl. cbn [qx qy qz qw]. apply E; field; assumption.
Qed.
Print Assumptions C35_algebra.
(** Normalizing: a unit quaternion in the same direction, and the old length; below the threshold nothing changes. *)
Theorem C35_normalize (q : quat R) : let l := sqrt (qx q * qx q + qy q * qy q + qz q * qz q + qw q * qw q) in
  (1 / 10000 <= l -> unitq (QNormalized q) /\ snd (QNormalize q) = l /\ QMulS (QNormalized q) l = q /\
     unitq (fst (QInverseAndNormalize q)) /\ fst (QInverseAndNormalize q) = QConjugated (QNormalized q)) /\
  (l < 1 / 10000 -> QNormalize q = (q, 0)) /\
  (QIsNormalized q (1 / 100000) = true <-> Rabs (l * l - 1) < 1 / 100000).
Proof.
  intros l. assert (L : l = sqrt (qn q)) by reflexivity. rewrite L. clear l L. split; [|split].
  - intros H. assert (C : qn (QConjugated q) = qn q) by (unfold qn, QConjugated; rsimpl; cbn [qx qy qz qw]; ring).
    unfold QNormalized, QInverseAndNormalize. rewrite (QNormalize_R q H). rewrite QNormalize_R by (rewrite C; exact H). rewrite C. cbn [fst snd].
    split; [apply QMulS_unit; lra|]. split; [reflexivity|]. destruct q as [x y z w]. set (s := sqrt _) in *.
    split; [unfold QMulS; rsimpl; cbn [qx qy qz qw]; f_equal; field; lra|].
    split; [|unfold QMulS, QConjugated; rsimpl; cbn [qx qy qz qw]; f_equal; ring]. unfold s. rewrite <- C. apply QMulS_unit. rewrite C. fold s. lra.
  - intros H. unfold QNormalize. rewrite QLength_R. rsimpl. rcase; [reflexivity|lra].
  - unfold QIsNormalized, EqualAbs. rewrite Abs_R. change (@QLengthSq R Num_R q) with (qn q). rewrite sqrt_sqrt by apply qn_pos. rsimpl. apply Rltb_true.
Qed.
Print Assumptions C35_normalize.
(** Products of matrices and quaternions, and matrices built from a translation, a quaternion and a scale. *)
Theorem C35_matrix_products (m : mat3 R) (q : quat R) (t s x : pt) : 
  apply (mulm_q m q) x = apply m (QTransform q x) /\ apply (mulq_m q m) x = QTransform q (apply m x) /\
  apply34 (FromTRSQ t q s) x = plus (QTransform q (V3 (vx s * vx x) (vy s * vy x) (vz s * vz x))) t /\
  apply (FromRSQ q s) x = QTransform q (V3 (vx s * vx x) (vy s * vy x) (vz s * vz x)).
Proof.
  unfold mulm_q, mulq_m. rewrite !mulm_apply, !QTransform_apply. split; [reflexivity|]. split; [reflexivity|].
  unfold FromTRSQ, FromRSQ. set (r := FromQuat q). clearbody r. unfold FromRS. split; apply vec_ext; mdes; munf; ring.
Qed.
Print Assumptions C35_matrix_products.
Definition wq : quat R := Q4 (1/2) (1/2) (1/2) (1/2).
Lemma wq_unit : unitq wq. Proof. unfold unitq, wq. cbn. field. Qed.
Example C35_witness : unitq wq /\ QTransform wq (V3 1 0 0) = V3 0 1 0 /\ unitq (Q4 0 0 (3/5) (4/5)) /\ QMul wq (Q4 0 0 (3/5) (4/5)) <> QMul (Q4 0 0 (3/5) (4/5)) wq.
Proof.
  split; [apply wq_unit|]. split; [rewrite QTransform_apply, FromQuat_R; unfold wq; cbv zeta; cbn [qx qy qz qw]; rewrite mk3_apply; f_equal; field|].
  split; [unfold unitq; cbn; field|]. intros E. apply (f_equal qx) in E. unfold QMul, wq in E. revert E. rsimpl. cbn [qx qy qz qw]. lra.
Qed.

(** * C36: quaternion from a matrix *)
Theorem C36_round_trip (m : mat3 R) : rotation (apply m) -> unitq (QFromMat m) /\ FromQuat (QFromMat m) = m.
Proof. apply QFromMat_correct. Qed.
Print Assumptions C36_round_trip.
(** The other way the sign is lost, and nothing else. *)
Theorem C36_back (q : quat R) : unitq q -> QFromMat (FromQuat q) = q \/ QFromMat (FromQuat q) = QNeg q.
Proof. intros U. destruct (QFromMat_correct (FromQuat q) (quat_rotation q U)) as [U' E]. now apply FromQuat_sign. Qed.
Print Assumptions C36_back.
Theorem C36_sign (p q : quat R) : unitq p -> unitq q -> (FromQuat p = FromQuat q <-> p = q \/ p = QNeg q).
Proof.
  intros P Q. split; [now apply FromQuat_sign|]. intros [->| ->]; [reflexivity|]. rewrite !FromQuat_R. unfold QNeg. rsimpl. cbn [qx qy qz qw]. unfold mk3. cbv zeta. mext; ring.
Qed.
Print Assumptions C36_sign.
(** Scale and rotation of a matrix built from them. *)
Theorem C36_decompose (q : quat R) (s : pt) : unitq q -> 0 < vx s -> 0 < vy s -> 0 < vz s ->
  snd (DecomposeQ (FromRSQ q s)) = s /\ (fst (DecomposeQ (FromRSQ q s)) = q \/ fst (DecomposeQ (FromRSQ q s)) = QNeg q).
Proof.
  intros U A B C. assert (O : orthonormal_cols (FromQuat q)) by exact (proj1 (quat_rotation q U)).
  destruct (C67_FromTRS (V3 0 0 0) (FromQuat q) s O A B C) as [D _]. unfold Decompose34 in D.
  assert (E : lin34 (FromTRS (V3 0 0 0) (FromQuat q) s) = FromRSQ q s).
  { unfold FromRSQ. set (r := FromQuat q). clearbody r. clear. unfold FromRS. mdes. munf. mext; ring. }
  rewrite E in D. unfold DecomposeQ. destruct (Decompose3 (FromRSQ q s)) as [rm sc]. assert (D1 := f_equal snd D); assert (D2 := f_equal (fun x => snd (fst x)) D); cbn [fst snd] in D1, D2; subst sc rm. cbn [fst snd]. split; [reflexivity|]. now apply C36_back.
Qed.
Print Assumptions C36_decompose.
Lemma rot345_rotation : rotation (apply (rot345 1)).
Proof.
  apply rotation_rotm with (a := 1 * (3/5)) (b := - (1 * (4/5))) (c := 0) (d := 1 * (4/5)) (e := 1 * (3/5)) (f := 0) (g := 0) (h := 0) (i := 1).
  repeat split; field.
Qed.
Example C36_witness : rotation (apply (rot345 1)) /\ apply (rot345 1) ex <> ex /\ rotation (apply (mk3 (-1) 0 0 0 1 0 0 0 (-1))).
Proof.
  split; [apply rot345_rotation|]. split; [intros E; apply (f_equal vx) in E; revert E; unfold apply, rot345, ex, dot; cbn; lra|].
  apply rotation_rotm. repeat split; ring.
Qed.

(** * C37: rotation between directions *)
(** The 3x3 matrix version: always a rotation taking a to b, and the shortest one away from (anti)parallel directions. *)
Theorem C37_matrix (a b : pt) : unitv a -> unitv b ->
  rotation (apply (RotateFromTo3 a b)) /\ apply (RotateFromTo3 a b) a = b /\
  (Rabs (dot a b) <= 999 / 1000 -> apply (RotateFromTo3 a b) (crossp a b) = crossp a b).
Proof.
  intros A B. destruct (RotateFromTo3_correct a b A B) as [Rt M]. split; [exact Rt|]. split; [exact M|]. intros D.
  rewrite (RotateFromTo3_far a b D). change (crossp a b) with (cross a b). apply fromto_axis.
  rewrite <- (norm_sq (cross a b)). pose proof (far_norm a b A B D) as N. unfold eps6 in N. nra.
Qed.
Print Assumptions C37_matrix.
(** The quaternion version, for directions whose cross product is longer than the normalization threshold. *)
Theorem C37_quat (a b : pt) : unitv a -> unitv b -> 1 / 1000000 < norm (crossp a b) ->
  unitq (QRotateFromTo a b) /\ QTransform (QRotateFromTo a b) a = b /\ QTransform (QRotateFromTo a b) (crossp a b) = crossp a b /\
  0 <= qw (QRotateFromTo a b) /\ apply34 (RotateFromTo34 a b) a = b.
Proof.
  intros A B H. destruct (QRotateFromTo_correct a b A B H) as (U & M & X). split; [exact U|]. split; [exact M|]. split; [exact X|].
  split; [rewrite (QRotateFromTo_R a b H); apply sqrt_pos|].
  etransitivity; [|exact M]. unfold RotateFromTo34. apply (proj1 (proj2 (proj2 (C35_rotation _ U)))).
Qed.
Print Assumptions C37_quat.
Lemma QRotateFromTo_parallel (a b : pt) : norm (cross a b) <= eps6 -> QRotateFromTo a b = Q4 1 0 0 0.
Proof.
  intros H. unfold QRotateFromTo. change (Cross a b) with (cross a b). rewrite Normalize_R. rewrite (proj2 (Rltb_false _ _) H). rsimpl. rcase; [|exfalso; lra]. reflexivity.
Qed.
Lemma flip_x x y z : QTransform (Q4 1 0 0 0) (V3 x y z) = V3 x (-y) (-z) :> pt.
Proof. rewrite QTransform_apply, FromQuat_R. cbv zeta. cbn [qx qy qz qw]. rewrite mk3_apply. f_equal; ring. Qed.
(** Finding: for parallel directions the quaternion version is a half turn about X: a direction is not taken to itself,
    and the opposite direction is reached only from directions orthogonal to X. *)
Theorem C37_quat_parallel_refuted (a b : pt) : unitv a -> norm (crossp a b) <= 1 / 1000000 ->
  QTransform (QRotateFromTo a b) a = V3 (vx a) (- vy a) (- vz a) /\
  QTransform (QRotateFromTo (V3 0 1 0) (V3 0 1 0)) (V3 0 1 0) = V3 0 (-1) 0 /\
  QTransform (QRotateFromTo (V3 1 0 0) (V3 (-1) 0 0)) (V3 1 0 0) = V3 1 0 0.
Proof.
  intros U H. assert (Z : forall v : pt, vx v = 0 -> vy v = 0 -> vz v = 0 -> norm v <= eps6).
  { intros [x y z]. cbn. intros -> -> ->. unfold norm, dot. cbn [vx vy vz]. replace (0*0+0*0+0*0) with 0 by ring. rewrite sqrt_0. unfold eps6. lra. }
  split; [|split].
  - rewrite (QRotateFromTo_parallel a b H). destruct a as [x y z]. apply flip_x.
  - rewrite QRotateFromTo_parallel by (apply Z; unfold cross; cbn [vx vy vz]; ring). rewrite flip_x. f_equal; ring.
  - rewrite QRotateFromTo_parallel by (apply Z; unfold cross; cbn [vx vy vz]; ring). rewrite flip_x. f_equal; ring.
Qed.
Print Assumptions C37_quat_parallel_refuted.
Theorem C37_LookAt (f t u w : pt) : unitv f -> unitv t -> unitv u -> orth f u -> 1 / 1000000 < norm (crossp w t) ->
  unitq (QLookAt f t u w) /\ QTransform (QLookAt f t u w) f = t /\
  (exists k, 0 < k /\ scale k (QTransform (QLookAt f t u w) u) = minus w (scale (dot w t) t)).
Proof.
  intros F T U O H. destruct (LookAt3_correct f t u w F T U O H) as (Rt & M & K). destruct (QFromMat_correct _ Rt) as [Uq E].
  unfold QLookAt. split; [exact Uq|]. rewrite !QTransform_apply, E. auto.
Qed.
Print Assumptions C37_LookAt.
Example C37_witness : unitv (V3 1 0 0) /\ unitv (V3 (3/5) (4/5) 0) /\ Rabs (dot (V3 1 0 0) (V3 (3/5) (4/5) 0)) <= 999 / 1000 /\
  1 / 1000000 < norm (crossp (V3 1 0 0) (V3 (3/5) (4/5) 0)) /\ norm (crossp (V3 1 0 0) (V3 1 0 0)) <= 1 / 1000000.
Proof.
  unfold unitv, dot, norm, crossp. cbn [vx vy vz]. split; [ring|]. split; [field|]. split; [rewrite Rabs_pos_eq; lra|]. split.
  - rewrite <- (sqrt_square (1/1000000)) by lra. apply sqrt_lt_1_alt. unfold dot. cbn [vx vy vz]. lra.
  - unfold dot. cbn [vx vy vz]. match goal with |- sqrt ?x <= _ => replace x with 0 by ring end. rewrite sqrt_0. lra.
Qed.

(** * C38: elementary, axis-angle and Euler rotations *)
Theorem C38_axis_angle (a : pt) (t : R) : unitv a ->
  rotates_about a t (apply (RotateAxisAngle a t)) /\ rotates_about a t (QTransform (QFromAxisAngle a t)) /\
  unitq (QFromAxisAngle a t) /\ rotates_about a t (apply34 (RotateAxisAngle34 a t)).
Proof.
  intros U. assert (Q := axis_angle_unit a t U). split; [|split; [|split; [exact Q|]]]; apply rodrigues_about; try exact U; intros v.
  - apply RotateAxisAngle_R.
  - now apply axis_angle_rodrigues.
  - etransitivity; [|now apply (axis_angle_rodrigues a t v)]. unfold RotateAxisAngle34. apply (proj1 (proj2 (proj2 (C35_rotation _ Q)))).
Qed.
Print Assumptions C38_axis_angle.
Theorem C38_elementary (t : R) :
  rotates_about ex t (apply (RotateX t)) /\ rotates_about ey t (apply (RotateY t)) /\ rotates_about ez t (apply (RotateZ t)) /\
  (forall v, QTransform (QRotateX t) v = apply (RotateX t) v) /\ (forall v, QTransform (QRotateY t) v = apply (RotateY t) v) /\ (forall v, QTransform (QRotateZ t) v = apply (RotateZ t) v).
Proof.
  destruct ex_unit as (U0 & U1 & U2). destruct (QRotate_R t) as (_ & _ & _ & E0 & E1 & E2).
  split; [apply rodrigues_about; [exact U0|intros v; apply RotateXYZ_R]|]. split; [apply rodrigues_about; [exact U1|intros v; apply RotateXYZ_R]|].
  split; [apply rodrigues_about; [exact U2|intros v; apply RotateXYZ_R]|].
  repeat split; intros v; rewrite QTransform_apply; [now rewrite E0|now rewrite E1|now rewrite E2].
Qed.
Print Assumptions C38_elementary.
(** All twelve orders: the matrix and the quaternion apply the three elementary rotations right to left. *)
Definition euler_orders : list ((R -> R -> R -> mat3 R) * (R -> R -> R -> quat R) * (mat3 R -> pt) * (pt * pt * pt)) :=
  [(FromEulerXYX, QFromEulerXYX, ToEulerXYX, (ex, ey, ex)); (FromEulerXZX, QFromEulerXZX, ToEulerXZX, (ex, ez, ex));
   (FromEulerYXY, QFromEulerYXY, ToEulerYXY, (ey, ex, ey)); (FromEulerYZY, QFromEulerYZY, ToEulerYZY, (ey, ez, ey));
   (FromEulerZXZ, QFromEulerZXZ, ToEulerZXZ, (ez, ex, ez)); (FromEulerZYZ, QFromEulerZYZ, ToEulerZYZ, (ez, ey, ez));
   (FromEulerXYZ, QFromEulerXYZ, ToEulerXYZ, (ex, ey, ez)); (FromEulerXZY, QFromEulerXZY, ToEulerXZY, (ex, ez, ey));
   (FromEulerYXZ, QFromEulerYXZ, ToEulerYXZ, (ey, ex, ez)); (FromEulerYZX, QFromEulerYZX, ToEulerYZX, (ey, ez, ex));
   (FromEulerZXY, QFromEulerZXY, ToEulerZXY, (ez, ex, ey)); (FromEulerZYX, QFromEulerZYX, ToEulerZYX, (ez, ey, ex))].
Theorem C38_euler F Q To u v w : In (F, Q, To, (u, v, w)) euler_orders ->
  forall a b c : R, exists A B C : pt -> pt, rotates_about u a A /\ rotates_about v b B /\ rotates_about w c C /\
  (forall x, apply (F a b c) x = A (B (C x))) /\ rotation (apply (F a b c)) /\ unitq (Q a b c) /\ (forall x, QTransform (Q a b c) x = A (B (C x))).
Proof.
  intros I a b c.
  assert (G : forall A B C : mat3 R, rotates_about u a (apply A) -> rotates_about v b (apply B) -> rotates_about w c (apply C) ->
    F a b c = mulm (mulm A B) C -> unitq (Q a b c) /\ FromQuat (Q a b c) = F a b c ->
    exists A B C : pt -> pt, rotates_about u a A /\ rotates_about v b B /\ rotates_about w c C /\
    (forall x, apply (F a b c) x = A (B (C x))) /\ rotation (apply (F a b c)) /\ unitq (Q a b c) /\ (forall x, QTransform (Q a b c) x = A (B (C x)))).
  { intros A B C HA HB HC E [U EQ]. exists (apply A), (apply B), (apply C). do 3 (split; [assumption|]).
    assert (X : forall x, apply (F a b c) x = apply A (apply B (apply C x))) by (intros x; rewrite E, !mulm_apply; reflexivity).
    split; [exact X|]. split; [rewrite <- EQ; now apply quat_rotation|]. split; [exact U|]. intros x. rewrite QTransform_apply, EQ. apply X. }
  destruct (C38_elementary a) as (Xa & Ya & Za & _). destruct (C38_elementary b) as (Xb & Yb & Zb & _). destruct (C38_elementary c) as (Xc & Yc & Zc & _).
  unfold euler_orders in I. cbn [In] in I.
  repeat (destruct I as [I|I]; [injection I as <- <- <- <- <- <-|]); [..|contradiction].
  - eapply G; [exact Xa|exact Yb|exact Xc|apply euler_XYX|apply qeuler_XYX].
  - eapply G; [exact Xa|exact Zb|exact Xc|apply euler_XZX|apply qeuler_XZX].
  - eapply G; [exact Ya|exact Xb|exact Yc|apply euler_YXY|apply qeuler_YXY].
  - eapply G; [exact Ya|exact Zb|exact Yc|apply euler_YZY|apply qeuler_YZY].
  - eapply G; [exact Za|exact Xb|exact Zc|apply euler_ZXZ|apply qeuler_ZXZ].
  - eapply G; [exact Za|exact Yb|exact Zc|apply euler_ZYZ|apply qeuler_ZYZ].
  - eapply G; [exact Xa|exact Yb|exact Zc|apply euler_XYZ|apply qeuler_XYZ].
  - eapply G; [exact Xa|exact Zb|exact Yc|apply euler_XZY|apply qeuler_XZY].
  - eapply G; [exact Ya|exact Xb|exact Zc|apply euler_YXZ|apply qeuler_YXZ].
  - eapply G; [exact Ya|exact Zb|exact Xc|apply euler_YZX|apply qeuler_YZX].
  - eapply G; [exact Za|exact Xb|exact Yc|apply euler_ZXY|apply qeuler_ZXY].
  - eapply G; [exact Za|exact Yb|exact Xc|apply euler_ZYX|apply qeuler_ZYX].
Qed.
Print Assumptions C38_euler.
(** Axis and angle of a quaternion, both ways. *)
Theorem C38_axis_angle_of_quat (q : quat R) (a : pt) (t : R) :
  (unitq q -> -1 < qw q < 1 -> unitv (QAxis q) /\ 0 < QAngle q < 2 * PI /\ QToAxisAngle q = (QAxis q, QAngle q) /\ rotates_about (QAxis q) (QAngle q) (QTransform q)) /\
  (unitv a -> 0 < t < 2 * PI -> QToAxisAngle (QFromAxisAngle a t) = (a, t) /\ QAxis (QFromAxisAngle a t) = a /\ QAngle (QFromAxisAngle a t) = t).
Proof.
  split.
  - intros U W. destruct (axis_angle_there q U W) as (V & T & E). destruct (QToAxisAngle_R q) as (_ & E1 & E2). rewrite E1, E2.
    split; [exact V|]. split; [exact T|]. split; [now destruct (QToAxisAngle q)|].
    pose proof (proj1 (proj2 (C38_axis_angle _ (snd (QToAxisAngle q)) V))) as K. rewrite E in K. exact K.
  - intros U T. destruct (QToAxisAngle_R (QFromAxisAngle a t)) as (_ & -> & ->). rewrite (axis_angle_back a t U T). auto.
Qed.
Print Assumptions C38_axis_angle_of_quat.
Example C38_witness : unitv (V3 (3/5) 0 (4/5)) /\ 0 < 1 < 2 * PI /\ unitq wq /\ -1 < qw wq < 1.
Proof. split; [unfold unitv, dot; cbn; field|]. split; [pose proof PI_RGT_0; pose proof PI2_3_2; pose proof PI_4; pose proof PI2_1; lra|]. split; [apply wq_unit|cbn; lra]. Qed.

(** * C72: extracting Euler angles *)
(** For every order and every rotation matrix the extracted angles rebuild the matrix, gimbal lock included. *)
Theorem C72_extract F Q To u v w : In (F, Q, To, (u, v, w)) euler_orders ->
  forall m : mat3 R, rotation (apply m) -> F (vx (To m)) (vy (To m)) (vz (To m)) = m /\ - PI <= vx (To m) <= PI /\ - PI <= vz (To m) <= PI.
Proof.
  intros I m Rt. pose proof PI_RGT_0 as Pp.
  assert (Rg : forall x y, - PI <= Ratan2 y x <= PI /\ - PI <= - Ratan2 y x <= PI /\ - PI <= 0 <= PI) by (intros x y; pose proof (Ratan2_range x y); lra).
  unfold euler_orders in I. cbn [In] in I.
  repeat (destruct I as [I|I]; [injection I as <- <- <- <- <- <-|]); [..|contradiction].
  1: split; [exact (to_XYX m Rt)|unfold ToEulerXYX].
  2: split; [exact (to_XZX m Rt)|unfold ToEulerXZX].
  3: split; [exact (to_YXY m Rt)|unfold ToEulerYXY].
  4: split; [exact (to_YZY m Rt)|unfold ToEulerYZY].
  5: split; [exact (to_ZXZ m Rt)|unfold ToEulerZXZ].
  6: split; [exact (to_ZYZ m Rt)|unfold ToEulerZYZ].
  7: split; [exact (to_XYZ m Rt)|unfold ToEulerXYZ].
  8: split; [exact (to_XZY m Rt)|unfold ToEulerXZY].
  9: split; [exact (to_YXZ m Rt)|unfold ToEulerYXZ].
  10: split; [exact (to_YZX m Rt)|unfold ToEulerYZX].
  11: split; [exact (to_ZXY m Rt)|unfold ToEulerZXY].
  12: split; [exact (to_ZYX m Rt)|unfold ToEulerZYX].
  all: rsimpl; trig;
    (rcase; [rcase|]); cbn [vx vy vz]; split; first [exact (proj1 (Rg _ _))|exact (proj1 (proj2 (Rg _ _)))|exact (proj2 (proj2 (Rg 0 0)))].
Qed.
Print Assumptions C72_extract.
(** Angles in the usual ranges are recovered from the matrix they make: the middle one in (-pi/2, pi/2) when the first
    and last axes differ and in (0, pi) when they agree. *)
Theorem C72_recover F Q To u v w : In (F, Q, To, (u, v, w)) euler_orders ->
  forall a b c : R, - PI < a <= PI -> - PI < c <= PI -> (u <> w -> - (PI / 2) < b < PI / 2) -> (u = w -> 0 < b < PI) -> To (F a b c) = V3 a b c.
Proof.
  intros I a b c A C B1 B2.
  assert (N : ex <> ey /\ ex <> ez /\ ey <> ez /\ ey <> ex /\ ez <> ex /\ ez <> ey) by (unfold ex, ey, ez; repeat split; intros E; injection E; lra).
  destruct N as (N1 & N2 & N3 & N4 & N5 & N6).
  unfold euler_orders in I. cbn [In] in I.
  repeat (destruct I as [I|I]; [injection I as <- <- <- <- <- <-|]); [..|contradiction].
  1-6: specialize (B2 eq_refl). 7-12: specialize (B1 ltac:(assumption)).
  - exact (from_XYX a b c A B2 C).
  - exact (from_XZX a b c A B2 C).
  - exact (from_YXY a b c A B2 C).
  - exact (from_YZY a b c A B2 C).
  - exact (from_ZXZ a b c A B2 C).
  - exact (from_ZYZ a b c A B2 C).
  - exact (from_XYZ a b c A B1 C).
  - exact (from_XZY a b c A B1 C).
  - exact (from_YXZ a b c A B1 C).
  - exact (from_YZX a b c A B1 C).
  - exact (from_ZXY a b c A B1 C).
  - exact (from_ZYX a b c A B1 C).
Qed.
Print Assumptions C72_recover.
Example C72_witness : In (FromEulerZYX, QFromEulerZYX, ToEulerZYX, (ez, ey, ex)) euler_orders /\ rotation (apply (rot345 1)) /\
  rotation (apply (mk3 0 0 1 0 1 0 (-1) 0 0)) /\ -PI < 1 <= PI /\ -(PI/2) < 1 < PI/2.
Proof.
  split; [unfold euler_orders; cbn [In]; tauto|]. split; [apply rot345_rotation|]. split; [apply rotation_rotm; repeat split; ring|].
  pose proof PI2_1. pose proof PI_RGT_0. pose proof PI2_3_2. lra.
Qed.

(** * C73: angles, spherical and polar coordinates *)
Theorem C73_angles (a b : pt) :
  (a <> origin -> b <> origin -> angle_between a b (AngleBetween a b)) /\ (unitv a -> unitv b -> angle_between a b (AngleBetweenNorm a b)).
Proof. split; [apply AngleBetween_correct|apply AngleBetweenNorm_correct]. Qed.
Print Assumptions C73_angles.
Theorem C73_spherical (v : pt) : 1 / 100000 < norm v ->
  let s := ToSpherical v in FromSpherical (vx s) (vy s) (vz s) = v /\ - PI < vx s <= PI /\ - (PI / 2) <= vy s <= PI / 2 /\ vz s = norm v.
Proof. apply spherical_there. Qed.
Print Assumptions C73_spherical.
Theorem C73_spherical_small (v : pt) : norm v <= 1 / 100000 -> ToSpherical v = V3 0 0 0.
Proof.
  intros N. unfold ToSpherical. rewrite Normalize_R. rsimpl. destruct (Rltb eps6 (norm v)); cbv beta iota; rcase; try reflexivity; exfalso; lra.
Qed.
Print Assumptions C73_spherical_small.
(** The angles are recovered, the radius is the length, and the point is R_y(azimuth) R_x(inclination) (0,0,radius). *)
Theorem C73_spherical_back (az inc r : R) :
  (- PI < az <= PI -> - (PI / 2) < inc < PI / 2 -> 1 / 100000 < r -> ToSpherical (FromSpherical az inc r) = V3 az inc r) /\
  (0 <= r -> norm (FromSpherical az inc r) = r) /\ FromSpherical az inc r = apply (RotateY az) (apply (RotateX inc) (V3 0 0 r)) /\
  FromSphericalUnit az inc = FromSpherical az inc 1.
Proof.
  split; [apply spherical_back|]. split; [apply spherical_norm|]. split; [apply spherical_matrix|].
  rewrite FromSpherical_R. unfold FromSphericalUnit. rsimpl. trig. f_equal; ring.
Qed.
Print Assumptions C73_spherical_back.
Theorem C73_spherical_normalized (v : pt) : unitv v -> let s := ToSphericalNormalized v in
  FromSphericalUnit (x2 s) (y2 s) = v /\ ToSpherical v = V3 (x2 s) (y2 s) 1.
Proof.
  intros U s. assert (N : norm v = 1) by now apply unit_norm. unfold s, ToSphericalNormalized. rsimpl. trig. cbn [x2 y2].
  destruct (sph_dir v U) as (D0 & D1 & D2). split.
  - unfold FromSphericalUnit. rsimpl. trig. rewrite D0, D1, D2. now destruct v.
  - rewrite ToSpherical_R by (rewrite N; lra). rewrite N. unfold scale. cbn [vx vy vz]. rewrite Rinv_1, !Rmult_1_l. reflexivity.
Qed.
Print Assumptions C73_spherical_normalized.
Theorem C73_polar (p : p2) (t r : R) :
  (1 / 10000 < nrm p -> FromPolar (x2 (ToPolar p)) (y2 (ToPolar p)) = p /\ - PI < x2 (ToPolar p) <= PI /\ y2 (ToPolar p) = nrm p /\ x2 (ToPolar p) = AimedAngle p) /\
  (nrm p <= 1 / 10000 -> ToPolar p = V2 0 0) /\
  (p <> o2 -> FromPolar (AimedAngle p) (nrm p) = p) /\
  (- PI < t <= PI -> 1 / 10000 < r -> ToPolar (FromPolar t r) = V2 t r).
Proof.
  assert (FP : forall a b, FromPolar a b = V2 (cos a * b) (sin a * b)) by (intros; unfold FromPolar; rsimpl; trig; reflexivity).
  assert (TP : ToPolar p = if Rltb (1/10000) (nrm p) then V2 (Ratan2 (y2 p) (x2 p)) (nrm p) else V2 0 0) by (unfold ToPolar; rsimpl; trig; reflexivity).
  assert (Aim : AimedAngle p = Ratan2 (y2 p) (x2 p)) by reflexivity.
  assert (G : 0 < nrm p -> FromPolar (Ratan2 (y2 p) (x2 p)) (nrm p) = p).
  { intros N. rewrite FP. assert (P : 0 < x2 p * x2 p + y2 p * y2 p) by (change (0 < dt p p); rewrite <- nrm_sq; nra).
    destruct (Ratan2_polar _ _ P) as [C S]. change (sqrt (x2 p * x2 p + y2 p * y2 p)) with (nrm p) in *. destruct p as [x y]. cbn [x2 y2] in *. f_equal; lra. }
  split; [|split; [|split]].
  - intros N. rewrite TP, (proj2 (Rltb_true _ _) N). cbn [x2 y2]. split; [apply G; lra|]. split; [apply Ratan2_range|]. auto.
  - intros N. now rewrite TP, (proj2 (Rltb_false _ _) N).
  - intros N. rewrite Aim. apply G. destruct (nrm_pos p) as [|E]; [assumption|]. exfalso. apply N, dt_zero. rewrite <- nrm_sq, <- E. ring.
  - intros T P. assert (N : nrm (FromPolar t r) = r).
    { rewrite FP. unfold nrm, dt. cbn [x2 y2]. pose proof (sin2_cos2 t) as Q. unfold Rsqr in Q.
      replace (cos t * r * (cos t * r) + sin t * r * (sin t * r)) with (r * r) by (transitivity (r * r * (sin t * sin t + cos t * cos t)); [rewrite Q|]; ring). apply sqrt_square. lra. }
    assert (TP' : ToPolar (FromPolar t r) = if Rltb (1/10000) (nrm (FromPolar t r)) then V2 (Ratan2 (y2 (FromPolar t r)) (x2 (FromPolar t r))) (nrm (FromPolar t r)) else V2 0 0)
      by (unfold ToPolar; rsimpl; trig; reflexivity).
    rewrite TP', N, (proj2 (Rltb_true _ _) P). rewrite FP. cbn [x2 y2]. rewrite (Rmult_comm (cos t)), (Rmult_comm (sin t)), Ratan2_unique by lra. reflexivity.
Qed.
Print Assumptions C73_polar.
(** Finding: float2::AngleBetween divides the angle, not the cosine, by the lengths. *)
Theorem C73_AngleBetween2 (a b : p2) : dt a a = 1 -> dt b b = 1 ->
  0 <= AngleBetweenNorm2 a b <= PI /\ dt a b = cos (AngleBetweenNorm2 a b) /\
  AngleBetween2 (V2 (1/2) 0) (V2 0 (1/2)) = 2 * PI.
Proof.
  intros A B. change (AngleBetweenNorm2 a b) with (acos (dt a b)). split; [apply acos_bound|]. split.
  - rewrite cos_acos; [reflexivity|]. unfold dt in *. pose proof (Rle_0_sqr (x2 a - x2 b)). pose proof (Rle_0_sqr (y2 a - y2 b)). pose proof (Rle_0_sqr (x2 a + x2 b)). pose proof (Rle_0_sqr (y2 a + y2 b)). unfold Rsqr in *. nra.
  - unfold AngleBetween2, Dot2, LengthSq2. rsimpl. trig. cbn [x2 y2]. replace (1/2*0+0*(1/2)) with 0 by ring. rewrite acos_0.
    replace ((1/2*(1/2)+0*0)*(0*0+1/2*(1/2))) with (1/4*(1/4)) by field. rewrite sqrt_square by lra. field.
Qed.
Print Assumptions C73_AngleBetween2.
Theorem C73_AngleBetween2_refuted : exists a b : p2, a <> o2 /\ b <> o2 /\ PI < AngleBetween2 a b.
Proof.
  exists (V2 (1/2) 0), (V2 0 (1/2)). split; [intros E; apply (f_equal x2) in E; cbn in E; lra|]. split; [intros E; apply (f_equal y2) in E; cbn in E; lra|].
  rewrite (proj2 (proj2 (C73_AngleBetween2 (V2 1 0) (V2 1 0) ltac:(unfold dt; cbn; ring) ltac:(unfold dt; cbn; ring)))). pose proof PI_RGT_0. lra.
Qed.
Print Assumptions C73_AngleBetween2_refuted.
Example C73_witness : 1 / 100000 < norm (V3 1 0 0) /\ V3 1 0 0 <> origin /\ 1 / 10000 < nrm (V2 0 1).
Proof.
  unfold norm, nrm, dot, dt. cbn [vx vy vz x2 y2]. replace (1*1+0*0+0*0) with 1 by ring. replace (0*0+1*1) with 1 by ring. rewrite sqrt_1.
  split; [lra|]. split; [intros E; apply (f_equal vx) in E; cbn in E; lra|lra].
Qed.

(** * C74: interpolation of orientations *)
(** A rotation on the shorter arc: a normalized nonnegative combination of the two quaternions after the sign of the
    first is chosen to make their inner product nonnegative. *)
Definition on_short_arc (p q r : quat R) (s a b : R) : Prop :=
  (s = 1 \/ s = -1) /\ 0 <= s * (qx p * qx q + qy p * qy q + qz p * qz q + qw p * qw q) /\ 0 <= a /\ 0 <= b /\ unitq r /\
  r = Q4 (s*a*qx p + b*qx q) (s*a*qy p + b*qy q) (s*a*qz p + b*qz q) (s*a*qw p + b*qw q).
Lemma arc_end p q r s a b : unitq p -> unitq q -> on_short_arc p q r s a b -> (a = 0 -> r = q) /\ (b = 0 -> FromQuat r = FromQuat p).
Proof.
  intros P Q (S & D & A & B & U & E). split.
  - intros ->. rewrite E in U. unfold unitq in U, Q. cbn [qx qy qz qw] in U.
    assert (B1 : b * b = 1) by (etransitivity; [|exact U]; transitivity (b*b*(qx q * qx q + qy q * qy q + qz q * qz q + qw q * qw q)); [rewrite Q|]; ring).
    assert (B2 : b = 1) by nra. rewrite E, B2. destruct q as [x y z w]. cbn [qx qy qz qw]. f_equal; ring.
  - intros ->. rewrite E in U. unfold unitq in U, P. cbn [qx qy qz qw] in U.
    assert (SS : s * s = 1) by (destruct S; subst; ring).
    assert (A1 : a * a = 1) by (etransitivity; [|exact U]; transitivity ((s*s)*(a*a)*(qx p * qx p + qy p * qy p + qz p * qz p + qw p * qw p)); [rewrite P, SS|]; ring).
    assert (A2 : a = 1) by nra. apply C36_sign; [rewrite E; unfold unitq; cbn [qx qy qz qw]; exact U|exact P|]. rewrite E, A2. destruct p as [x y z w]. unfold QNeg. rsimpl. cbn [qx qy qz qw].
    destruct S; subst s; [left|right]; f_equal; ring.
Qed.
Theorem C74_lerp (p q : quat R) (t : R) : unitq p -> unitq q -> 0 <= t <= 1 ->
  (exists s k, 0 < k /\ on_short_arc p q (QLerp p q t) s (k * (1 - t)) (k * t)) /\
  FromQuat (QLerp p q 0) = FromQuat p /\ QLerp p q 1 = q.
Proof.
  intros P Q T.
  assert (G : forall t, 0 <= t <= 1 -> exists s k, 0 < k /\ on_short_arc p q (QLerp p q t) s (k * (1 - t)) (k * t)).
  { intros u Hu. destruct (QLerp_R p q u P Q Hu) as (s & S & D & U & k & K & E). exists s, k. split; [exact K|]. split; [exact S|]. split; [exact D|].
    split; [nra|]. split; [nra|]. split; [exact U|]. rewrite E. unfold qcomb. f_equal; ring. }
  split; [now apply G|]. split.
  - destruct (G 0 ltac:(lra)) as (s & k & K & A). apply (arc_end _ _ _ _ _ _ P Q A). ring.
  - destruct (G 1 ltac:(lra)) as (s & k & K & A). apply (arc_end _ _ _ _ _ _ P Q A). ring.
Qed.
Print Assumptions C74_lerp.
Theorem C74_slerp (p q : quat R) (t : R) : unitq p -> unitq q -> 0 <= t <= 1 ->
  (exists s a b, on_short_arc p q (QSlerp p q t) s a b /\ (0 < t -> 0 < b) /\ (t < 1 -> 0 < a) /\ (t = 1/2 -> a = b)) /\
  FromQuat (QSlerp p q 0) = FromQuat p /\ QSlerp p q 1 = q.
Proof.
  intros P Q T.
  assert (G : forall t, 0 <= t <= 1 -> exists s a b, on_short_arc p q (QSlerp p q t) s a b /\ (0 < t -> 0 < b) /\ (t < 1 -> 0 < a) /\ (t = 1/2 -> a = b) /\ (t = 0 -> b = 0) /\ (t = 1 -> a = 0)).
  { intros u Hu. destruct (QSlerp_R p q u P Q Hu) as (s & a & b & S & D & A & B & U & E & T0 & T1 & T2 & T3 & T4). exists s, a, b. unfold on_short_arc. unfold QDot in D. revert D. rsimpl. intros D.
    repeat split; auto. }
  split; [destruct (G t T) as (s & a & b & A & X & Y & Z & _); exists s, a, b; auto|]. split.
  - destruct (G 0 ltac:(lra)) as (s & a & b & A & _ & _ & _ & B0 & _). apply (arc_end _ _ _ _ _ _ P Q A). now apply B0.
  - destruct (G 1 ltac:(lra)) as (s & a & b & A & _ & _ & _ & _ & A0). apply (arc_end _ _ _ _ _ _ P Q A). now apply A0.
Qed.
Print Assumptions C74_slerp.
(** Directions: the result is a unit vector between the two, strictly inside for 0 < t < 1 and the bisector at 1/2. *)
Definition between_dirs (a b r : pt) : Prop := unitv r /\ exists l m, 0 < l /\ 0 < m /\ r = plus (scale l a) (scale m b).
Theorem C74_slerp_vector (a b : pt) (t : R) : unitv a -> unitv b -> 1 / 1000000 < norm (crossp a b) ->
  (t <= 0 -> SlerpVector a b t = a) /\ (1 <= t -> SlerpVector a b t = b) /\ (0 < t < 1 -> between_dirs a b (SlerpVector a b t)) /\
  dot (SlerpVector a b (1/2)) a = dot (SlerpVector a b (1/2)) b.
Proof.
  intros A B H. unfold SlerpVector. rsimpl.
  assert (G : forall t, 0 < t < 1 -> between_dirs a b (QTransform (QSlerp QIdentity (QRotateFromTo a b) t) a)).
  { intros u Hu. destruct (slerp_core a b u A B H ltac:(lra)) as (U & l & m & L & M & E & _ & Mp & Lp). split; [exact U|]. exists l, m. split; [apply Lp; lra|]. split; [apply Mp; lra|exact E]. }
  split; [intros Ht; rcase; [reflexivity|exfalso; lra]|]. split; [intros Ht; rcase; [exfalso; lra|]; rcase; [reflexivity|exfalso; lra]|].
  split; [intros Ht; rcase; [exfalso; lra|]; rcase; [exfalso; lra|]; now apply G|].
  rcase; [exfalso; lra|]; rcase; [exfalso; lra|].
  destruct (slerp_core a b (1/2) A B H ltac:(lra)) as (U & l & m & L & M & E & Hl & _). rewrite E, (Hl eq_refl), !dot_plus_l, !dot_scale_l, (dot_comm b a). unfold unitv in A, B. rewrite A, B. ring.
Qed.
Print Assumptions C74_slerp_vector.
Theorem C74_slerp_vector_abs (a b : pt) (t th : R) : unitv a -> unitv b -> 1 / 1000000 < norm (crossp a b) -> angle_between a b th ->
  (t <= 0 -> SlerpVectorAbs a b t = a) /\ (0 < t -> th <= t -> SlerpVectorAbs a b t = b) /\ (0 < t < th -> between_dirs a b (SlerpVectorAbs a b t)).
Proof.
  intros A B H [Th1 Th2].
  assert (An : QAngle (QRotateFromTo a b) = th).
  { rewrite (QRotateFromTo_R a b H). unfold QAngle. rsimpl. trig. cbn [qw].
    rewrite (proj1 (unit_norm a) A), (proj1 (unit_norm b) B) in Th2.
    replace (sqrt (1/2 + 1/2 * dot a b)) with (cos (th / 2)); [rewrite acos_cos by lra; field|].
    symmetry. replace (1/2 + 1/2 * dot a b) with (cos (th/2) * cos (th/2)); [apply sqrt_square; apply cos_ge_0; lra|].
    rewrite Th2. replace (cos th) with (cos (2 * (th / 2))) by (f_equal; field). rewrite cos_2a_cos. field. }
  unfold SlerpVectorAbs. rewrite An. cbv zeta. rsimpl.
  split; [intros Ht; rcase; [reflexivity|exfalso; lra]|]. split; [intros Ht1 Ht2; rcase; [exfalso; lra|]; rcase; [reflexivity|exfalso; lra]|].
  intros Ht. rcase; [exfalso; lra|]; rcase; [exfalso; lra|].
  assert (P : 0 < t / th) by (apply Rdiv_lt_0_compat; lra). assert (P' : t / th < 1) by (apply (Rmult_lt_reg_r th); [lra|]; unfold Rdiv; rewrite Rmult_assoc, Rinv_l by lra; lra).
  destruct (slerp_core a b (t/th) A B H ltac:(lra)) as (U & l & m & L & M & E & _ & Mp & Lp). split; [exact U|]. exists l, m. split; [apply Lp; lra|]. split; [apply Mp; lra|exact E].
Qed.
Print Assumptions C74_slerp_vector_abs.
(** The angle between orientations: twice the angle between the quaternions; rotating by it about AxisFromTo leads from
    one to the other.  Finding: it is not the shortest route when the inner product is negative. *)
Theorem C74_orientations (p q : quat R) : unitq p -> unitq q ->
  0 <= QAngleBetween p q <= 2 * PI /\ cos (QAngleBetween p q / 2) = qx p * qx q + qy p * qy q + qz p * qz q + qw p * qw q /\
  (0 < QAngleBetween p q < 2 * PI -> unitv (QAxisFromTo p q) /\
    exists f, rotates_about (QAxisFromTo p q) (QAngleBetween p q) f /\ forall v, QTransform q v = f (QTransform p v)).
Proof.
  intros P Q. destruct (angle_between_orientations p q P Q) as [An Ax]. rewrite An.
  assert (Db : -1 <= QDot p q <= 1).
  { pose proof (qn_pos (qcomb 1 p 1 q)) as C1. pose proof (qn_pos (qcomb 1 p (-1) q)) as C2. rewrite (qcomb_norm _ _ _ _ P Q) in C1; rewrite (qcomb_norm _ _ _ _ P Q) in C2. lra. }
  pose proof (acos_bound (QDot p q)) as Ab. split; [lra|]. split.
  - replace (2 * acos (QDot p q) / 2) with (acos (QDot p q)) by field. rewrite cos_acos by lra. reflexivity.
  - intros T. destruct Ax as [V E].
    { assert (N1 : QDot p q <> 1) by (intros E; rewrite E in T; rewrite acos_1 in T; lra).
      assert (N2 : QDot p q <> -1) by (intros E; rewrite E in T; replace (-1) with (-(1)) in T by ring; rewrite acos_opp, acos_1 in T; lra). lra. }
    split; [exact V|]. exists (QTransform (QFromAxisAngle (QAxisFromTo p q) (QAngleBetween p q))). rewrite An in *.
    split; [now apply C38_axis_angle|]. intros v. rewrite !QTransform_apply, E, mulm_apply. reflexivity.
Qed.
Print Assumptions C74_orientations.
Theorem C74_shortest_refuted : exists p q : quat R, unitq p /\ unitq q /\ (forall v, QTransform p v = QTransform q v) /\ QAngleBetween p q = 2 * PI.
Proof.
  exists QIdentity, (QNeg QIdentity). assert (U : unitq (@QIdentity R Num_R)) by (unfold unitq, QIdentity; rsimpl; cbn [qx qy qz qw]; ring).
  assert (U' : unitq (QNeg (@QIdentity R Num_R))) by (unfold unitq, QNeg, QIdentity; rsimpl; cbn [qx qy qz qw]; ring).
  split; [exact U|]. split; [exact U'|]. split; [intros v; rewrite !QTransform_apply; f_equal; symmetry; apply C36_sign; auto|].
  rewrite (proj1 (angle_between_orientations _ _ U U')). unfold QDot, QNeg, QIdentity. rsimpl. cbn [qx qy qz qw].
  match goal with |- context [acos ?x] => replace x with (-(1)) by ring end. rewrite acos_opp, acos_1. ring.
Qed.
Print Assumptions C74_shortest_refuted.
(** Finding: interpolating a direction towards itself leaves it. *)
Theorem C74_slerp_vector_refuted : exists (a : pt) t, unitv a /\ 0 < t < 1 /\ SlerpVector a a t <> a.
Proof.
  exists (V3 0 1 0), (1/2). split; [unfold unitv, dot; cbn; ring|]. split; [lra|]. unfold SlerpVector. rsimpl. rcase; [exfalso; lra|]. rcase; [exfalso; lra|].
  assert (Z : norm (cross (V3 0 1 0) (V3 0 1 0)) <= eps6).
  { unfold norm, dot, cross. cbn [vx vy vz]. match goal with |- sqrt ?x <= _ => replace x with 0 by ring end. rewrite sqrt_0. unfold eps6. lra. }
  rewrite (QRotateFromTo_parallel _ _ Z).
  assert (U : unitq (@QIdentity R Num_R)) by (unfold unitq, QIdentity; rsimpl; cbn [qx qy qz qw]; ring). assert (U' : unitq (Q4 1 0 0 0)) by (unfold unitq; cbn; ring).
  destruct (QSlerp_R QIdentity (Q4 1 0 0 0) (1/2) U U' ltac:(lra)) as (s & a & b & S & _ & A & B & Us & E & _ & _ & Hh & Hb & _). rewrite <- (Hh eq_refl) in *. specialize (Hb ltac:(lra)).
  rewrite E in Us |- *. unfold qcomb, QIdentity in *. revert Us. rsimpl. cbn [qx qy qz qw]. unfold unitq. cbn [qx qy qz qw]. intros Us Eq.
  rewrite QTransform_apply, FromQuat_R in Eq. cbv zeta in Eq. cbn [qx qy qz qw] in Eq. rewrite mk3_apply in Eq. apply (f_equal vy) in Eq. cbn [vy] in Eq. nra.
Qed.
Print Assumptions C74_slerp_vector_refuted.
Example C74_witness : unitq wq /\ unitq (Q4 0 0 (3/5) (4/5)) /\ unitv (V3 1 0 0) /\ unitv (V3 (3/5) (4/5) 0) /\ 1 / 1000000 < norm (crossp (V3 1 0 0) (V3 (3/5) (4/5) 0)).
Proof. split; [apply wq_unit|]. split; [unfold unitq; cbn; field|]. destruct C37_witness as (A & B & _ & C & _). auto. Qed.

(** * C25: the quaternion overload of AABB::TransformAsAABB does not enclose the rotated box *)
Theorem C25_quat_refuted : exists (b : aabb R) (q : quat R) (p : pt), unitq q /\
  (vx (minPoint b) <= vx p <= vx (maxPoint b) /\ vy (minPoint b) <= vy p <= vy (maxPoint b) /\ vz (minPoint b) <= vz p <= vz (maxPoint b)) /\
  vx (maxPoint (AABB_TransformAsAABBQ b q)) < vx (QTransform q p).
Proof.
  exists (Box (V3 (-1) (-1) (-1)) (V3 1 1 1)), (Q4 0 0 (3/5) (4/5)), (V3 1 (-1) 0). split; [unfold unitq; cbn; field|]. split; [cbn; lra|].
  rewrite QTransform_apply. unfold AABB_TransformAsAABBQ, AABB_CenterPoint, AABB_Size. rewrite !QTransform_apply, FromQuat_R. cbv zeta. cbn [qx qy qz qw].
  unfold vmuls, vadd, vsub, vAbs. cbn [minPoint maxPoint vx vy vz]. rewrite !mk3_apply. cbn [vx vy vz]. rewrite !Abs_R. rsimpl.
  assert (E : forall x, Rabs x <= Rmax x (-x)) by (intros x; unfold Rabs, Rmax; destruct (Rcase_abs x), (Rle_dec x (-x)); lra).
  match goal with |- ?c + Rabs ?x < _ => pose proof (E x) as Ex end. unfold Rmax in Ex. destruct (Rle_dec _ _) in Ex; lra.
Qed.
Print Assumptions C25_quat_refuted.
