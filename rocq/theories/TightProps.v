(** Theorems added after wrong programs slipped through: small functions that no earlier theorem pinned down. *)
From Coq Require Import Reals Psatz List Bool.
From Verif Require Import Num NumR ScalarModel ScalarProofs Vec2Model Vec3Model GeoTypes GeoSpec GeoLemmas AabbModel AabbSpec MatModel MatSpec MatProofs MatProofs2 MatProps GMatModel GMatSpec GMatProofs PivotProps LineModel LineSpec
  RotModel RotSpec RotProofs PlaneModel SphereModel SphereSpec CircleModel CapsuleModel ObbModel.
Import ListNotations.
Open Scope R_scope.
Ltac Zify.zify_post_hook ::= idtac.

(** float4x4::Pivot on a 4x4 matrix. *)
Theorem C33_pivot4 (m : mat4 R) : meq 4 (g4 (Pivot4 m)) (Pivot 4 (g4 m)).
Proof. intros i j Hi Hj. unfold Pivot4. do 4 (destruct i as [|i]; [do 4 (destruct j as [|j]; [reflexivity|]); lia|]). lia. Qed.
Print Assumptions C33_pivot4.

(** RemoveScale gives unit rows, positive multiples of the old ones; it undoes a scale applied after a rotation (M = S * M'). *)
Theorem C67_remove_scale (m : mat3 R) (r : mat3 R) (s : pt) :
  (1 / 1000000 < norm (row0 m) -> 1 / 1000000 < norm (row1 m) -> 1 / 1000000 < norm (row2 m) ->
    (unitv (row0 (RemoveScale m)) /\ row0 m = scale (norm (row0 m)) (row0 (RemoveScale m))) /\
    (unitv (row1 (RemoveScale m)) /\ row1 m = scale (norm (row1 m)) (row1 (RemoveScale m))) /\
    (unitv (row2 (RemoveScale m)) /\ row2 m = scale (norm (row2 m)) (row2 (RemoveScale m)))) /\
  (unitv (row0 r) -> unitv (row1 r) -> unitv (row2 r) -> 1 / 1000000 < vx s -> 1 / 1000000 < vy s -> 1 / 1000000 < vz s -> RemoveScale (ScaleRows r s) = r).
Proof.
  assert (N : forall v : pt, 1 / 1000000 < norm v -> unitv (Normalized v) /\ v = scale (norm v) (Normalized v)).
  { intros v H. rewrite (Normalized_R v H). split; [unfold unitv; rewrite dot_scale_l, dot_scale_r, <- norm_sq; field; lra|]. apply vec_ext; gunf; cbn [vx vy vz]; field; lra. }
  split; [intros A B C; unfold RemoveScale; cbn [row0 row1 row2]; auto|].
  assert (K : forall (v : pt) k, unitv v -> 1 / 1000000 < k -> Normalized (V3 (vx v * k) (vy v * k) (vz v * k)) = v).
  { intros v k U H. assert (E : norm (V3 (vx v * k) (vy v * k) (vz v * k)) = k). { unfold norm. replace (dot _ _) with (k * k * dot v v) by (gunf; cbn [vx vy vz]; ring). unfold unitv in U. rewrite U, Rmult_1_r. apply sqrt_square. lra. }
    rewrite Normalized_R by (rewrite E; exact H). rewrite E. apply vec_ext; gunf; cbn [vx vy vz]; field; lra. }
  intros A B C X Y Z. unfold RemoveScale, ScaleRows. cbv zeta. cbn [row0 row1 row2]. rsimpl. rewrite !K by assumption. now destruct r.
Qed.
Print Assumptions C67_remove_scale.
Example C67_remove_scale_witness : unitv (V3 (3/5) (4/5) 0) /\ 1 / 1000000 < norm (V3 3 0 0). Proof. split; [unfold unitv; gunf; cbn; lra|]. replace (norm (V3 3 0 0)) with 3; [lra|]. symmetry. unfold norm. replace (dot _ _) with (3 * 3) by (gunf; cbn; ring). apply sqrt_square. lra. Qed.

(** Quat::Equals: every component within the tolerance. *)
Theorem C35_equals (q r : quat R) e : QEquals q r e = true <-> Rabs (qx q - qx r) < e /\ Rabs (qy q - qy r) < e /\ Rabs (qz q - qz r) < e /\ Rabs (qw q - qw r) < e.
Proof. unfold QEquals. rewrite !andb_true_iff, !EqualAbs_R. tauto. Qed.
Print Assumptions C35_equals.

(** What TransformAsAABB(Quat) does compute: the box around the rotated centre whose size is the rotated size, component by component. *)
Theorem C25_quat_actual (b : aabb R) (q : quat R) : let r := AABB_TransformAsAABBQ b q in let c := apply (FromQuat q) (scale (1 / 2) (plus (minPoint b) (maxPoint b))) in let d := apply (FromQuat q) (minus (maxPoint b) (minPoint b)) in
  scale (1 / 2) (plus (minPoint r) (maxPoint r)) = c /\ minus (maxPoint r) (minPoint r) = V3 (Rabs (vx d)) (Rabs (vy d)) (Rabs (vz d)).
Proof.
  cbv zeta. unfold AABB_TransformAsAABBQ. rewrite !QTransform_apply. cbn [minPoint maxPoint].
  assert (C : AABB_CenterPoint b = scale (1 / 2) (plus (minPoint b) (maxPoint b))) by (unfold AABB_CenterPoint, vmuls, vadd, nhalf; rsimpl; apply vec_ext; gunf; cbn [vx vy vz]; field). rewrite C.
  assert (D : AABB_Size b = minus (maxPoint b) (minPoint b)) by reflexivity. rewrite D. set (x := apply (FromQuat q) (scale _ _)). set (y := apply (FromQuat q) (minus _ _)). clearbody x y. unfold vAbs, vmuls, vsub, vadd, nhalf. rsimpl. rewrite !Abs_R.
  assert (H : forall t, Rabs (t * (1 / 2)) = Rabs t / 2) by (intros t; rewrite Rabs_mult, (Rabs_pos_eq (1 / 2)) by lra; field). cbn [vx vy vz]. rewrite !H. split; apply vec_ext; gunf; cbn [vx vy vz]; field.
Qed.
Print Assumptions C25_quat_actual.

(** InverseAffineMatrixUniformScale and InverseAffineMatrixNonuniformScale divide by the length where the inverse needs its square: right for rigid
    transforms, wrong for a uniform scale by 2. *)
Lemma scale_rows_1 (m : mat3 R) : ScaleRows m (V3 1 1 1) = m.
Proof. unfold ScaleRows. cbv zeta. cbn [vx vy vz]. rsimpl. destruct m as [[] [] []]. cbn. now rewrite !Rmult_1_r. Qed.
Theorem C34_affine_templates (p : mat34 R) : orthonormal_cols (lin34 p) -> inverses34 p (InverseAffineMatrixUniformScale p) /\ inverses34 p (InverseAffineMatrixNonuniformScale p).
Proof.
  intros O. pose proof (InverseOrthonormal34_correct p O) as I. assert (U : unitv (col0 (lin34 p)) /\ unitv (col1 (lin34 p)) /\ unitv (col2 (lin34 p))).
  { apply orthonormal_cols_iff in O. destruct O as (_ & A & B & C). destruct (cols_apply (lin34 p)) as (E0 & E1 & E2). rewrite E0, E1, E2. auto. }
  destruct U as (U0 & U1 & U2). assert (S : forall v : pt, unitv v -> nsqrt (n1 / LengthSq v)%num = 1) by (intros v U; rewrite LengthSq_R; unfold unitv in U; rewrite U; rsimpl; replace (1 / 1) with 1 by field; apply sqrt_1).
  unfold InverseAffineMatrixUniformScale, InverseAffineMatrixNonuniformScale. cbv zeta. unfold Transposed3 at 2 4 5 6. cbn [row0 row1 row2]. rewrite !S by assumption. rewrite !scale_rows_1. now split.
Qed.
Print Assumptions C34_affine_templates.
Theorem C34_affine_templates_refuted : exists p : mat34 R, col_orthogonal (lin34 p) /\ uniform_scale (lin34 p) /\ ~ inverses34 p (InverseAffineMatrixUniformScale p) /\ ~ inverses34 p (InverseAffineMatrixNonuniformScale p).
Proof.
  exists (M34 (M3 (V3 2 0 0) (V3 0 2 0) (V3 0 0 2)) (V3 0 0 0)).
  assert (S : sqrt (1 / (2 * 2 + 0 * 0 + 0 * 0)) = 1 / 2) by (replace (1 / (2 * 2 + 0 * 0 + 0 * 0)) with (1 / 2 * (1 / 2)) by field; apply sqrt_square; lra).
  assert (S1 : sqrt (1 / (0 * 0 + 2 * 2 + 0 * 0)) = 1 / 2) by (replace (1 / (0 * 0 + 2 * 2 + 0 * 0)) with (1 / 2 * (1 / 2)) by field; apply sqrt_square; lra).
  assert (S2 : sqrt (1 / (0 * 0 + 0 * 0 + 2 * 2)) = 1 / 2) by (replace (1 / (0 * 0 + 0 * 0 + 2 * 2)) with (1 / 2 * (1 / 2)) by field; apply sqrt_square; lra).
  split; [unfold col_orthogonal, orth; repeat split; unfold apply, ex, ey, ez; gunf; cbn; ring|]. split.
  - split; unfold apply, ex, ey, ez, norm; f_equal; gunf; cbn; ring.
  - split; intros I; specialize (I (V3 1 0 0)) as (E & _); apply (f_equal vx) in E; revert E; unfold apply34, apply, InverseAffineMatrixUniformScale, InverseAffineMatrixNonuniformScale, Transposed3, ScaleRows, col0, col1, col2, LengthSq; cbv zeta; cbn [lin34 trans34 row0 row1 row2 vx vy vz]; rsimpl; rewrite S, ?S1, ?S2; unfold mulv, Dot, vneg; rsimpl; gunf; cbn; lra.
Qed.
Print Assumptions C34_affine_templates_refuted.

(** OBB::Diagonal runs from the first corner to the last, HalfDiagonal from the centre to the last, and Size is the pair of opposite face distances. *)
Theorem C51_diagonals (o : obb R) : OBB_Diagonal o = minus (OBB_CornerPoint o 7) (OBB_CornerPoint o 0) /\ OBB_HalfDiagonal o = minus (OBB_CornerPoint o 7) (opos o) /\
  OBB_Diagonal o = plus (plus (scale (vx (OBB_Size o)) (oaxis0 o)) (scale (vy (OBB_Size o)) (oaxis1 o))) (scale (vz (OBB_Size o)) (oaxis2 o)).
Proof. unfold OBB_Diagonal, OBB_HalfDiagonal, OBB_CornerPoint, OBB_Size, n2. cbv zeta. unfold smulv, vmuls, vadd, vsub. rsimpl. repeat split; apply vec_ext; gunf; cbn [vx vy vz]; ring. Qed.
Print Assumptions C51_diagonals.

(** Capsule: degenerate exactly without a positive radius; its end spheres sit at the first and the last point of the segment. *)
Theorem C50_ends (c : capsule R) : (Capsule_IsDegenerate c = true <-> cap_r c <= 0) /\ spos (Capsule_SphereA c) = along (seg_a (cap_l c)) (minus (seg_b (cap_l c)) (seg_a (cap_l c))) 0 /\ spos (Capsule_SphereB c) = along (seg_a (cap_l c)) (minus (seg_b (cap_l c)) (seg_a (cap_l c))) 1 /\ srad (Capsule_SphereA c) = cap_r c /\ srad (Capsule_SphereB c) = cap_r c.
Proof. unfold Capsule_IsDegenerate, Capsule_SphereA, Capsule_SphereB. rsimpl. rewrite Rleb_true. cbn [spos srad]. unfold along. repeat split; auto; apply vec_ext; gunf; cbn [vx vy vz]; ring. Qed.
Print Assumptions C50_ends.

(** What Circle::IntersectsDisc answers when the line, ray or segment does not cross the plane: whether the point it would have returned is near the centre. *)
Theorem C76_intersects_disc_miss (c : circle R) (l : line R) (r : ray R) (s : segment R) : 0 <= circ_r c ->
  (fst (Plane_IntersectsLine (Circle_ContainingPlane c) l) = false -> Circle_IntersectsDiscLine c l = true <-> dist (Line_GetPoint l (snd (Plane_IntersectsLine (Circle_ContainingPlane c) l))) (circ_pos c) <= circ_r c) /\
  (fst (Plane_IntersectsRay (Circle_ContainingPlane c) r) = false -> Circle_IntersectsDiscRay c r = true <-> dist (Ray_GetPoint r (snd (Plane_IntersectsRay (Circle_ContainingPlane c) r))) (circ_pos c) <= circ_r c) /\
  (fst (Plane_IntersectsSeg (Circle_ContainingPlane c) s) = false -> Circle_IntersectsDiscSeg c s = true <-> dist (Seg_GetPoint s (snd (Plane_IntersectsSeg (Circle_ContainingPlane c) s))) (circ_pos c) <= circ_r c).
Proof.
  intros P. unfold Circle_IntersectsDiscLine, Circle_IntersectsDiscRay, Circle_IntersectsDiscSeg.
  destruct (Plane_IntersectsLine _ l) as [x1 d1], (Plane_IntersectsRay _ r) as [x2 d2], (Plane_IntersectsSeg _ s) as [x3 d3]. cbn [fst snd].
  split; [|split]; intros ->; rsimpl; rewrite Rleb_true, DistanceSq_R; unfold dist; now rewrite (norm_sq_le _ _ P).
Qed.
Print Assumptions C76_intersects_disc_miss.

(** float2 negation is the additive inverse. *)
Theorem C70_negate (a : v2 R) : add2 a (neg2 a) = V2 0 0 /\ sub2 a (neg2 a) = V2 (2 * x2 a) (2 * y2 a).
Proof. unfold add2, sub2, neg2. rsimpl. cbn [x2 y2]. split; f_equal; ring. Qed.
Print Assumptions C70_negate.
