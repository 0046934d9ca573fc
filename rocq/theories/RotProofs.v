(** Lemmas about rotations. *)
From Coq Require Import Reals Lra Psatz List.
From Verif Require Import Num NumR ScalarModel ScalarProofs Vec3Model GeoTypes GeoSpec GeoLemmas Vec3Props AabbModel
  GMatModel MatModel MatSpec MatProofs MatProofs2 Vec2Model RotModel RotSpec.
Import ListNotations.
Open Scope R_scope.

(** ** Rotation matrices, by elements *)
Definition rotm (a b c d e f g h i : R) : Prop :=
  (a*a + d*d + g*g = 1 /\ b*b + e*e + h*h = 1 /\ c*c + f*f + i*i = 1 /\ a*b + d*e + g*h = 0 /\ a*c + d*f + g*i = 0 /\ b*c + e*f + h*i = 0) /\
  (a*a + b*b + c*c = 1 /\ d*d + e*e + f*f = 1 /\ g*g + h*h + i*i = 1 /\ a*d + b*e + c*f = 0 /\ a*g + b*h + c*i = 0 /\ d*g + e*h + f*i = 0) /\
  (a = e*i - f*h /\ b = f*g - d*i /\ c = d*h - e*g /\ d = c*h - b*i /\ e = a*i - c*g /\ f = b*g - a*h /\
   g = b*f - c*e /\ h = c*d - a*f /\ i = a*e - b*d).
Lemma unit_eq (a b : pt) : dot a a = 1 -> dot b b = 1 -> dot a b = 1 -> a = b.
Proof.
  intros Ha Hb Hab. assert (Z : dot (minus a b) (minus a b) = 0) by (rewrite dot_minus_l, !dot_minus_r, (dot_comm b a); lra).
  unfold dot, minus in Z. cbn [vx vy vz] in Z.
  assert (G : forall x y z, x * x + y * y + z * z = 0 -> x = 0) by (intros x y z E; apply Rsqr_0_uniq; unfold Rsqr; nra).
  apply vec_ext; apply Rminus_diag_uniq; [apply (G _ _ _ Z)|apply (G _ (vx a - vx b) (vz a - vz b)); lra|apply (G _ (vx a - vx b) (vy a - vy b)); lra].
Qed.
Lemma mk3_apply (a b c d e f g h i x y z : R) :
  apply (mk3 a b c d e f g h i) (V3 x y z) = V3 (a*x + b*y + c*z) (d*x + e*y + f*z) (g*x + h*y + i*z).
Proof. reflexivity. Qed.
Lemma rotm_of (a b c d e f g h i : R) : rotation (apply (mk3 a b c d e f g h i)) -> rotm a b c d e f g h i.
Proof.
  intros (D & V).
  assert (C : a*a + d*d + g*g = 1 /\ b*b + e*e + h*h = 1 /\ c*c + f*f + i*i = 1 /\ a*b + d*e + g*h = 0 /\ a*c + d*f + g*i = 0 /\ b*c + e*f + h*i = 0).
  { pose proof (D ex ex) as E0. pose proof (D ey ey) as E1. pose proof (D ez ez) as E2.
    pose proof (D ex ey) as E3. pose proof (D ex ez) as E4. pose proof (D ey ez) as E5.
    unfold ex, ey, ez in *. rewrite !mk3_apply in *. unfold dot in *. cbn [vx vy vz] in *. repeat split; lra. }
  assert (Det : a*(e*i - f*h) + d*(c*h - b*i) + g*(b*f - c*e) = 1).
  { pose proof (V ex ey ez) as E. unfold ex, ey, ez in E. rewrite !mk3_apply in E. unfold volume in E. cbn [vx vy vz] in E. lra. }
  destruct C as (C0&C1&C2&C3&C4&C5).
  assert (X : forall p q r : pt, dot p p = 1 -> dot q q = 1 -> dot r r = 1 -> dot q r = 0 -> volume p q r = 1 -> p = crossp q r).
  { intros p q r Hp Hq Hr Hqr Hv. apply unit_eq; [assumption| |].
    - change (crossp q r) with (cross q r). rewrite cross_sq, Hq, Hr, Hqr. ring.
    - change (crossp q r) with (cross q r). now rewrite <- volume_cross. }
  assert (K0 : V3 a d g = crossp (V3 b e h) (V3 c f i)) by (apply X; unfold dot, volume; cbn [vx vy vz]; lra).
  assert (K1 : V3 b e h = crossp (V3 c f i) (V3 a d g)) by (apply X; unfold dot, volume; cbn [vx vy vz]; lra).
  assert (K2 : V3 c f i = crossp (V3 a d g) (V3 b e h)) by (apply X; unfold dot, volume; cbn [vx vy vz]; lra).
  unfold crossp in *. cbn [vx vy vz] in *. injection K0 as K00 K01 K02. injection K1 as K10 K11 K12. injection K2 as K20 K21 K22.
  split; [tauto|].
  assert (I : forall v, apply (mk3 a b c d e f g h i) (apply (mk3 a d g b e h c f i) v) = v).
  { intros v. apply (InverseOrthonormal_correct (mk3 a b c d e f g h i)). intros u w. apply D. }
  pose proof (I ex) as I0. pose proof (I ey) as I1. pose proof (I ez) as I2. unfold ex, ey, ez in *. rewrite !mk3_apply in *.
  injection I0 as I00 I01 I02. injection I1 as I10 I11 I12. injection I2 as I20 I21 I22.
  split; repeat split; lra.
Qed.
Lemma rotation_of_cols (m : mat3 R) : unitv (apply m ex) -> unitv (apply m ey) -> unitv (apply m ez) ->
  orth (apply m ex) (apply m ey) -> orth (apply m ex) (apply m ez) -> orth (apply m ey) (apply m ez) -> Determinant m = 1 -> rotation (apply m).
Proof.
  intros U0 U1 U2 O1 O2 O3 D. split.
  - apply orthonormal_cols_iff. split; [split; [assumption|split; assumption]|split; [|split]; assumption].
  - intros a b c. rewrite det_volume, D. ring.
Qed.
Lemma rotation_rotm (a b c d e f g h i : R) : rotm a b c d e f g h i -> rotation (apply (mk3 a b c d e f g h i)).
Proof.
  intros ((C0&C1&C2&C3&C4&C5)&_&(K0&K1&K2&K3&K4&K5&K6&K7&K8)). apply rotation_of_cols; unfold unitv, orth, ex, ey, ez; rewrite ?mk3_apply; unfold dot; cbn [vx vy vz].
  1,2,3,4,5,6: lra.
  unfold Determinant, mk3. rsimpl. cbn [row0 row1 row2 vx vy vz]. nra.
Qed.

(** ** Quaternions *)
Definition qn (q : quat R) : R := qx q * qx q + qy q * qy q + qz q * qz q + qw q * qw q.
Definition qhom (q : quat R) : mat3 R :=
  let x := qx q in let y := qy q in let z := qz q in let w := qw q in
  mk3 (x*x + w*w - y*y - z*z) (2*(x*y - z*w)) (2*(x*z + y*w))
      (2*(x*y + z*w)) (y*y + w*w - x*x - z*z) (2*(y*z - x*w))
      (2*(x*z - y*w)) (2*(y*z + x*w)) (z*z + w*w - x*x - y*y).
Lemma FromQuat_R (q : quat R) : FromQuat q =
  let x := qx q in let y := qy q in let z := qz q in let w := qw q in
  mk3 (1 - 2*(y*y + z*z)) (2*(x*y - z*w)) (2*(x*z + y*w))
      (2*(x*y + z*w)) (1 - 2*(x*x + z*z)) (2*(y*z - x*w))
      (2*(x*z - y*w)) (2*(y*z + x*w)) (1 - 2*(x*x + y*y)).
Proof. unfold FromQuat. rsimpl. reflexivity. Qed.
Lemma qhom_eq (q : quat R) : unitq q -> FromQuat q = qhom q.
Proof. intros U. unfold unitq in U. rewrite FromQuat_R. unfold qhom, mk3. cbv zeta. mext; lra. Qed.
Lemma qhom_rotm (q : quat R) : unitq q -> let x := qx q in let y := qy q in let z := qz q in let w := qw q in
  rotm (x*x + w*w - y*y - z*z) (2*(x*y - z*w)) (2*(x*z + y*w))
      (2*(x*y + z*w)) (y*y + w*w - x*x - z*z) (2*(y*z - x*w))
      (2*(x*z - y*w)) (2*(y*z + x*w)) (z*z + w*w - x*x - y*y).
Proof.
  intros U x y z w. unfold unitq in U. fold x y z w in U. set (N := x * x + y * y + z * z + w * w) in *.
  assert (N2 : N * N = 1) by (rewrite U; ring).
  assert (N1 : forall t, t = N * t) by (intros; rewrite U; ring).
  repeat split; try (rewrite <- N2; unfold N; ring); try ring; try (etransitivity; [apply N1|]; unfold N; ring).
Qed.
Lemma quat_rotation (q : quat R) : unitq q -> rotation (apply (FromQuat q)).
Proof. intros U. rewrite (qhom_eq q U). apply rotation_rotm. exact (qhom_rotm q U). Qed.
Lemma qmul_norm (p q : quat R) : qn (QMul p q) = qn p * qn q.
Proof. unfold qn, QMul. rsimpl. cbn [qx qy qz qw]. ring. Qed.
Lemma qmul_unit (p q : quat R) : unitq p -> unitq q -> unitq (QMul p q).
Proof. unfold unitq. intros Hp Hq. change (qn (QMul p q) = 1). rewrite qmul_norm. unfold qn. rewrite Hp, Hq. ring. Qed.
Lemma qhom_mul (p q : quat R) : qhom (QMul p q) = mulm (qhom p) (qhom q).
Proof.
  destruct p as [a b c d], q as [e f g h]. unfold qhom, QMul, mulm, mulmRow, mk3. rsimpl. cbn [qx qy qz qw row0 row1 row2 vx vy vz]. mext; ring.
Qed.
Lemma FromQuat_mul (p q : quat R) : unitq p -> unitq q -> FromQuat (QMul p q) = mulm (FromQuat p) (FromQuat q).
Proof. intros Hp Hq. rewrite !qhom_eq by auto using qmul_unit. apply qhom_mul. Qed.
Lemma qconj_unit (q : quat R) : unitq q -> unitq (QConjugated q).
Proof. unfold unitq, QConjugated. rsimpl. cbn [qx qy qz qw]. lra. Qed.
Lemma qmul_conj (q : quat R) : unitq q -> QMul q (QConjugated q) = QIdentity /\ QMul (QConjugated q) q = QIdentity.
Proof.
  unfold unitq, QMul, QConjugated, QIdentity. destruct q as [a b c d]. rsimpl. cbn [qx qy qz qw]. intros U. split; f_equal; lra.
Qed.
Lemma FromQuat_id : FromQuat QIdentity = identity3 :> mat3 R.
Proof. rewrite FromQuat_R. unfold QIdentity, identity3, mk3. rsimpl. cbn [qx qy qz qw]. mext; ring. Qed.
Lemma QTransform_apply (q : quat R) v : QTransform q v = apply (FromQuat q) v. Proof. reflexivity. Qed.
Lemma QTransform_inv (q : quat R) v : unitq q -> QTransform q (QTransform (QConjugated q) v) = v /\ QTransform (QConjugated q) (QTransform q v) = v.
Proof.
  intros U. rewrite !QTransform_apply, <- !mulm_apply, <- !FromQuat_mul by auto using qconj_unit.
  destruct (qmul_conj q U) as [-> ->]. rewrite FromQuat_id, apply_id. auto.
Qed.
(** The rotation of a unit quaternion with vector part u and scalar part w. *)
Definition qvec (q : quat R) : pt := V3 (qx q) (qy q) (qz q).
Lemma quat_formula (q : quat R) v : unitq q ->
  QTransform q v = plus (plus (scale (qw q * qw q - dot (qvec q) (qvec q)) v) (scale (2 * qw q) (crossp (qvec q) v))) (scale (2 * dot (qvec q) v) (qvec q)).
Proof.
  intros U. rewrite QTransform_apply, qhom_eq by assumption. destruct q as [a b c d], v as [x y z]. unfold qhom. rewrite mk3_apply.
  unfold plus, scale, crossp, dot, qvec. cbn [qx qy qz qw vx vy vz]. f_equal; ring.
Qed.
(** Rodrigues' formula gives the rotation about an axis. *)
Definition rodrigues (a : pt) (s c : R) (v : pt) : pt := plus (plus (scale c v) (scale s (crossp a v))) (scale ((1 - c) * dot a v) a).
Lemma half_angle theta : cos theta = cos (theta * (1/2)) * cos (theta * (1/2)) - sin (theta * (1/2)) * sin (theta * (1/2)) /\
  sin theta = 2 * sin (theta * (1/2)) * cos (theta * (1/2)).
Proof.
  set (h := theta * (1/2)). assert (E : theta = 2 * h) by (unfold h; field). rewrite E. split; [apply cos_2a|apply sin_2a].
Qed.
Lemma QFromAxisAngle_R (a : pt) theta : QFromAxisAngle a theta = Q4 (vx a * sin (theta * (1/2))) (vy a * sin (theta * (1/2))) (vz a * sin (theta * (1/2))) (cos (theta * (1/2))).
Proof. unfold QFromAxisAngle. rsimpl. reflexivity. Qed.
Lemma axis_angle_unit (a : pt) theta : unitv a -> unitq (QFromAxisAngle a theta).
Proof.
  intros U. rewrite QFromAxisAngle_R. unfold unitq, unitv, dot in *. cbn [qx qy qz qw].
  pose proof (sin2_cos2 (theta * (1/2))) as P. unfold Rsqr in P. set (s := sin _) in *. set (c := cos _) in *.
  transitivity ((vx a * vx a + vy a * vy a + vz a * vz a) * (s * s) + c * c); [ring|rewrite U; lra].
Qed.
Lemma axis_angle_rodrigues (a : pt) theta v : unitv a -> QTransform (QFromAxisAngle a theta) v = rodrigues a (sin theta) (cos theta) v.
Proof.
  intros U. rewrite quat_formula by now apply axis_angle_unit. destruct (half_angle theta) as [-> ->]. rewrite QFromAxisAngle_R.
  pose proof (sin2_cos2 (theta * (1/2))) as P. unfold Rsqr in P. set (s := sin (theta * (1/2))) in *. set (c := cos (theta * (1/2))) in *.
  unfold qvec. cbn [qx qy qz qw]. unfold unitv in U.
  assert (E : dot (V3 (vx a * s) (vy a * s) (vz a * s)) (V3 (vx a * s) (vy a * s) (vz a * s)) = s * s).
  { transitivity (dot a a * (s * s)); [unfold dot; cbn [vx vy vz]; ring|rewrite U; ring]. }
  rewrite E. unfold rodrigues. replace (1 - (c * c - s * s)) with (2 * s * s) by lra. unfold plus, scale, crossp, dot. cbn [vx vy vz]. f_equal; ring.
Qed.
Lemma rodrigues_about (a : pt) theta (f : pt -> pt) : unitv a -> (forall v, f v = rodrigues a (sin theta) (cos theta) v) -> rotates_about a theta f.
Proof.
  intros U E. split; [|split].
  - assert (Rt := quat_rotation _ (axis_angle_unit a theta U)).
    assert (F : forall v, f v = apply (FromQuat (QFromAxisAngle a theta)) v).
    { intros v. rewrite E, <- (axis_angle_rodrigues a theta v U). apply QTransform_apply. }
    destruct Rt as [D V]. split; intros; rewrite !F; [apply D|apply V].
  - rewrite E. unfold unitv, rodrigues in *. rewrite U. destruct a as [x y z]. unfold plus, scale, crossp. cbn [vx vy vz]. f_equal; ring.
  - intros v O. rewrite E. unfold orth, rodrigues in *. rewrite O. destruct a as [x y z], v as [x' y' z']. unfold plus, scale, crossp. cbn [vx vy vz]. f_equal; ring.
Qed.
(** The rotation about an axis is determined by the specification. *)
Lemma rotates_about_unique (a : pt) theta (f g : pt -> pt) : unitv a -> (forall u v, f (plus u v) = plus (f u) (f v)) -> (forall u v, g (plus u v) = plus (g u) (g v)) ->
  (forall k u, f (scale k u) = scale k (f u)) -> (forall k u, g (scale k u) = scale k (g u)) ->
  rotates_about a theta f -> rotates_about a theta g -> forall v, f v = g v.
Proof.
  intros U Lf Lg Sf Sg (_ & Fa & Fo) (_ & Ga & Go) v.
  assert (E : v = plus (scale (dot a v) a) (minus v (scale (dot a v) a))) by (apply vec_ext; unfold plus, scale, minus; cbn [vx vy vz]; ring).
  assert (O : orth a (minus v (scale (dot a v) a))) by (unfold orth, unitv in *; rewrite dot_minus_r, dot_scale_r, U; ring).
  rewrite E, Lf, Lg, Sf, Sg, Fa, Ga, (Fo _ O), (Go _ O). reflexivity.
Qed.
Lemma RotateAxisAngle_R (a : pt) theta v : apply (RotateAxisAngle a theta) v = rodrigues a (sin theta) (cos theta) v.
Proof.
  unfold RotateAxisAngle. rsimpl. destruct a as [x y z], v as [u v w]. rewrite mk3_apply. unfold rodrigues, plus, scale, crossp, dot. cbn [vx vy vz].
  change (@nsin R Num_R NumTrig_R theta) with (sin theta). change (@ncos R Num_R NumTrig_R theta) with (cos theta). f_equal; ring.
Qed.
Lemma RotateXYZ_R theta v :
  apply (RotateX theta) v = rodrigues ex (sin theta) (cos theta) v /\
  apply (RotateY theta) v = rodrigues ey (sin theta) (cos theta) v /\
  apply (RotateZ theta) v = rodrigues ez (sin theta) (cos theta) v.
Proof.
  unfold RotateX, RotateY, RotateZ. rsimpl. destruct v as [u v w]. rewrite !mk3_apply. unfold rodrigues, plus, scale, crossp, dot, ex, ey, ez. cbn [vx vy vz].
  change (@nsin R Num_R NumTrig_R theta) with (sin theta). change (@ncos R Num_R NumTrig_R theta) with (cos theta). split; [|split]; f_equal; ring.
Qed.
