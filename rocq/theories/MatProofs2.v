(** More about the matrix classes over R: TransformOps products, planes, projections, LookAt, decomposition. *)
From Coq Require Import Reals Lra Lia Psatz List Arith.
From Verif Require Import Num NumR ScalarModel ScalarProofs Vec3Model GeoTypes GeoSpec GeoLemmas GMatModel GMatSpec GMatProofs MatModel MatSpec MatProofs.
Import ListNotations.
Open Scope R_scope.

Ltac mext := repeat match goal with
  | |- M34 _ _ = M34 _ _ => f_equal | |- M3 _ _ _ = M3 _ _ _ => f_equal | |- V3 _ _ _ = V3 _ _ _ => f_equal
  | |- M4 _ _ _ _ = M4 _ _ _ _ => f_equal | |- X4 _ _ _ _ = X4 _ _ _ _ => f_equal end.
Lemma apply34_inj (a b : mat34 R) : (forall v, apply34 a v = apply34 b v) -> a = b.
Proof.
  intros E. assert (E0 := E (V3 0 0 0)). assert (E1 := E ex). assert (E2 := E ey). assert (E3 := E ez). clear E.
  destruct a as [[[a b' c] [d e f] [g h i]] [x y z]], b as [[[a2 b2 c2] [d2 e2 f2] [g2 h2 i2]] [x2 y2 z2]]. munf.
  injection E0. injection E1. injection E2. injection E3. intros. mext; lra.
Qed.

(** ** Products with translations and scales *)
Lemma transform_ops (p : mat34 R) (m : mat3 R) (A : mat4 R) (t s : pt) :
  TranslateTimes34 t p = mulm34 (TranslateOp34 t) p /\ TimesTranslate34 p t = mulm34 p (TranslateOp34 t) /\
  ScaleTimes3 s m = mulm (ScaleOp3 s) m /\ TimesScale3 m s = mulm m (ScaleOp3 s) /\
  ScaleTimes34 s p = mulm34 (ScaleOp34 s) p /\ TimesScale34 p s = mulm34 p (ScaleOp34 s) /\
  ScaleTranslate s t = mulm34 (ScaleOp34 s) (TranslateOp34 t) /\ TranslateScale t s = mulm34 (TranslateOp34 t) (ScaleOp34 s) /\
  ScaleTimes4 s A = mulm4 (of34 (ScaleOp34 s)) A /\ TimesScale4 A s = mulm4 A (of34 (ScaleOp34 s)).
Proof.
  destruct p as [[[a b c] [d e f] [g h i]] [x y z]], m as [[a2 b2 c2] [d2 e2 f2] [g2 h2 i2]], t as [t1 t2 t3], s as [s1 s2 s3],
    A as [[a3 b3 c3 d3] [e3 f3 g3 h3] [i3 j3 k3 l3] [o3 p3 q3 r3]].
  repeat split; munf; mext; ring.
Qed.
Lemma transform_ops4 (A : mat4 R) (t : pt) : r43 A = X4 0 0 0 1 ->
  TranslateTimes4 t A = mulm4 (of34 (TranslateOp34 t)) A /\ TimesTranslate4 A t = mulm4 A (of34 (TranslateOp34 t)).
Proof.
  destruct A as [[a3 b3 c3 d3] [e3 f3 g3 h3] [i3 j3 k3 l3] [o3 p3 q3 r3]], t as [t1 t2 t3]. cbn [r43]. intros Q. injection Q as -> -> -> ->.
  split; munf; mext; ring.
Qed.
Lemma mixed_products (a : mat3 R) (p : mat34 R) (A : mat4 R) :
  of34 (mulm34_3 p a) = mulm4 (of34 p) (of3 a) /\ of34 (mulm3_34 a p) = mulm4 (of3 a) (of34 p) /\
  mulm4_34 A p = mulm4 A (of34 p) /\ mulm4_3 A a = mulm4 A (of3 a) /\ mulm3_4 a A = mulm4 (of3 a) A /\ mulm34_4 p A = mulm4 (of34 p) A /\
  (forall q, of34 (mulm34 p q) = mulm4 (of34 p) (of34 q)).
Proof.
  destruct p as [[[a1 b c] [d e f] [g h i]] [x y z]], a as [[a2 b2 c2] [d2 e2 f2] [g2 h2 i2]],
    A as [[a3 b3 c3 d3] [e3 f3 g3 h3] [i3 j3 k3 l3] [o3 p3 q3 r3]].
  repeat split; try intros [[[a4 b4 c4] [d4 e4 f4] [g4 h4 i4]] [x4 y4 z4]]; munf; mext; ring.
Qed.
Lemma ops_apply (t s x : pt) :
  apply34 (TranslateOp34 t) x = plus x t /\ apply (ScaleOp3 s) x = V3 (vx s * vx x) (vy s * vy x) (vz s * vz x).
Proof. split; apply vec_ext; mdes; munf; ring. Qed.
Lemma about_point (r : mat34 R) (c x : pt) : trans34 r = V3 0 0 0 -> apply34 (AboutPoint34 r c) x = plus c (apply (lin34 r) (minus x c)).
Proof.
  unfold AboutPoint34. destruct r as [[[a b d] [e f g] [h i j]] [t1 t2 t3]]. cbn [trans34 lin34]. intros Q. injection Q as -> -> ->.
  apply vec_ext; mdes; munf; ring.
Qed.
Lemma scale_about (s c x : pt) : apply34 (ScaleAbout34 s c) x = plus c (apply (ScaleOp3 s) (minus x c)).
Proof. unfold ScaleAbout34. apply vec_ext; mdes; munf; ring. Qed.

(** ** Decomposition *)
Lemma decompose_compose (p : mat34 R) : 0 < norm (apply (lin34 p) ex) -> 0 < norm (apply (lin34 p) ey) -> 0 < norm (apply (lin34 p) ez) ->
  let '(t, r, s) := Decompose34 p in
  FromTRS t r s = p /\ vx s = norm (apply (lin34 p) ex) /\ vy s = norm (apply (lin34 p) ey) /\ vz s = norm (apply (lin34 p) ez) /\
  unitv (apply r ex) /\ unitv (apply r ey) /\ unitv (apply r ez) /\ (col_orthogonal (lin34 p) -> orthonormal_cols r).
Proof.
  intros P1 P2 P3. unfold Decompose34, Decompose3, ExtractScale. destruct (cols_apply (lin34 p)) as (-> & -> & ->). change (@Length R Num_R) with norm.
  cbv zeta. set (s1 := norm _) in *. set (s2 := norm (apply (lin34 p) ey)) in *. set (s3 := norm (apply (lin34 p) ez)) in *. cbn [vx vy vz].
  assert (Q1 : s1 * s1 = dot (apply (lin34 p) ex) (apply (lin34 p) ex)) by apply norm_sq.
  assert (Q2 : s2 * s2 = dot (apply (lin34 p) ey) (apply (lin34 p) ey)) by apply norm_sq.
  assert (Q3 : s3 * s3 = dot (apply (lin34 p) ez) (apply (lin34 p) ez)) by apply norm_sq. clearbody s1 s2 s3.
  set (r := ScaleCols _ _).
  assert (C1 : apply r ex = scale (1 / s1) (apply (lin34 p) ex)) by (unfold r; apply vec_ext; clear - p; mdes; munf; ring).
  assert (C2 : apply r ey = scale (1 / s2) (apply (lin34 p) ey)) by (unfold r; apply vec_ext; clear - p; mdes; munf; ring).
  assert (C3 : apply r ez = scale (1 / s3) (apply (lin34 p) ez)) by (unfold r; apply vec_ext; clear - p; mdes; munf; ring).
  assert (U1 : unitv (apply r ex)) by (unfold unitv; rewrite C1, dot_scale_l, dot_scale_r, <- Q1; field; lra).
  assert (U2 : unitv (apply r ey)) by (unfold unitv; rewrite C2, dot_scale_l, dot_scale_r, <- Q2; field; lra).
  assert (U3 : unitv (apply r ez)) by (unfold unitv; rewrite C3, dot_scale_l, dot_scale_r, <- Q3; field; lra).
  split; [|do 6 (split; [exact eq_refl || assumption|])].
  - unfold r. destruct p as [[[a b d] [e f g] [h i j]] [t1 t2 t3]]. clear -P1 P2 P3. munf. mext; try field; lra.
  - intros (O1 & O2 & O3). apply orthonormal_cols_iff. split; [|easy]. unfold col_orthogonal, orth in *.
    rewrite C1, C2, C3, !dot_scale_l, !dot_scale_r, O1, O2, O3. repeat split; ring.
Qed.

(** ** Mirroring and projecting on a plane n.x = d *)
Lemma mirror_apply (n : pt) d x : apply34 (Mirror34 (Pln n d)) x = minus x (scale (2 * (dot n x - d)) n).
Proof. apply vec_ext; mdes; munf; ring. Qed.
Lemma project_apply (n : pt) d x : apply34 (OrthographicProjection34 (Pln n d)) x = minus x (scale (dot n x - d) n).
Proof. apply vec_ext; mdes; munf; ring. Qed.

(** ** LookAt *)
Definition cross (a b : pt) : pt := V3 (vy a * vz b - vz a * vy b) (vz a * vx b - vx a * vz b) (vx a * vy b - vy a * vx b).
Lemma Cross_R (a b : pt) : Cross a b = cross a b. Proof. reflexivity. Qed.
Lemma cross_dot_l a b : dot a (cross a b) = 0. Proof. unfold cross; gunf; ring. Qed.
Lemma cross_dot_r a b : dot b (cross a b) = 0. Proof. unfold cross; gunf; ring. Qed.
Lemma cross_sq a b : dot (cross a b) (cross a b) = dot a a * dot b b - dot a b * dot a b.
Proof. unfold cross; gunf; ring. Qed.
Lemma volume_cross a b c : volume a b c = dot a (cross b c).
Proof. unfold cross; gunf; ring. Qed.
Lemma Normalized_R (v : pt) : 1 / 1000000 < norm v -> Normalized v = scale (/ norm v) v.
Proof.
  intros Hv. unfold Normalized, Normalize. change (Length v) with (norm v). cbv zeta. rsimpl.
  destruct (Rltb_spec (1 / 1000000) (norm v)); [|lra]. cbn [fst]. rewrite vmuls_R. f_equal. field. lra.
Qed.
Lemma Normalized_unit (v : pt) : unitv v -> Normalized v = v.
Proof.
  intros U. assert (N : norm v = 1) by (unfold norm; rewrite U; apply sqrt_1). rewrite Normalized_R by lra. rewrite N, Rinv_1. apply scale_1.
Qed.
Lemma Orthonormalize3_id (a b c : pt) : unitv a -> unitv b -> unitv c -> orth a b -> orth a c -> orth b c -> Orthonormalize3 a b c = (a, b, c).
Proof.
  intros Ua Ub Uc Oab Oac Obc. unfold Orthonormalize3. rewrite (Normalized_unit a Ua).
  assert (P : forall x y : pt, orth x y -> vsub y (ProjectToNorm y x) = y).
  { intros x y O. unfold orth in O. unfold ProjectToNorm. rewrite vsub_R, Dot_R. unfold smulv, vmuls. rewrite (dot_comm y x), O. apply vec_ext; cbn; ring. }
  rewrite (P a b Oab), (Normalized_unit b Ub), (P a c Oac), (P b c Obc), (Normalized_unit c Uc). easy.
Qed.
Lemma mulm_cols_rows (W P t r u f v : pt) :
  apply (mulm (ofCols W P t) (M3 r u f)) v = plus (plus (scale (dot r v) W) (scale (dot u v) P)) (scale (dot f v) t).
Proof. apply vec_ext; mdes; munf; ring. Qed.
(** An orthonormal triple expands every vector (Parseval). *)
Lemma parseval (r u f a b : pt) : unitv r -> unitv u -> unitv f -> orth r u -> orth r f -> orth u f ->
  dot r a * dot r b + dot u a * dot u b + dot f a * dot f b = dot a b.
Proof.
  intros Ur Uu Uf O1 O2 O3.
  assert (O : orthonormal_cols (Transposed3 (M3 r u f))).
  { apply orthonormal_cols_iff. unfold col_orthogonal, orth, unitv in *.
    assert (E1 : apply (Transposed3 (M3 r u f)) ex = r) by (apply vec_ext; mdes; munf; ring).
    assert (E2 : apply (Transposed3 (M3 r u f)) ey = u) by (apply vec_ext; mdes; munf; ring).
    assert (E3 : apply (Transposed3 (M3 r u f)) ez = f) by (apply vec_ext; mdes; munf; ring). rewrite E1, E2, E3. repeat split; easy. }
  apply InverseOrthonormal_correct in O. destruct (O a) as [I _]. unfold InverseOrthonormal in I.
  assert (T2 : Transposed3 (Transposed3 (M3 r u f)) = M3 r u f) by (destruct r, u, f; reflexivity). rewrite T2 in I.
  match goal with |- ?l = _ => transitivity (dot (apply (M3 r u f) a) (apply (M3 r u f) b)) end; [gunf; munf; ring|].
  rewrite <- transposed_dot. f_equal. exact I.
Qed.
Lemma frame_rotation (W P t r u f : pt) : unitv W -> unitv P -> unitv t -> orth W P -> orth W t -> orth P t ->
  unitv r -> unitv u -> unitv f -> orth r u -> orth r f -> orth u f -> volume W P t * volume r u f = 1 ->
  rotation (apply (mulm (ofCols W P t) (M3 r u f))).
Proof.
  intros. split.
  - intros a b. rewrite !mulm_cols_rows. rewrite !dot_plus_l, !dot_plus_r, !dot_scale_l, !dot_scale_r. unfold orth, unitv in *.
    rewrite (dot_comm P W), (dot_comm t W), (dot_comm t P). rewrite H, H0, H1, H2, H3, H4. rewrite <- (parseval r u f a b) by easy. ring.
  - intros a b c. rewrite det_volume, det_mul.
    replace (Determinant (ofCols W P t)) with (volume W P t) by (unfold Determinant; clear; mdes; munf; ring).
    replace (Determinant (M3 r u f)) with (volume r u f) by (unfold Determinant; clear; mdes; munf; ring). rewrite H11. ring.
Qed.
Lemma LookAt3_correct (f t u w : pt) : unitv f -> unitv t -> unitv u -> orth f u -> 1 / 1000000 < norm (cross w t) ->
  rotation (apply (LookAt3 f t u w)) /\ apply (LookAt3 f t u w) f = t /\
  (exists k, 0 < k /\ scale k (apply (LookAt3 f t u w) u) = minus w (scale (dot w t) t)).
Proof.
  intros Uf Ut Uu Ofu Hc. unfold LookAt3. change (@Cross R Num_R) with cross. cbv zeta. unfold orth, unitv in *.
  assert (Ur : dot (cross u f) (cross u f) = 1) by (rewrite cross_sq, Uu, Uf, (dot_comm u f), Ofu; ring).
  rewrite (Normalized_unit (cross u f)) by exact Ur. rewrite (Normalized_R (cross w t)) by easy.
  set (c := norm (cross w t)) in *. assert (Hcc : c * c = dot (cross w t) (cross w t)) by apply norm_sq. clearbody c.
  set (W := scale (/ c) (cross w t)).
  assert (UW : dot W W = 1) by (unfold W; rewrite dot_scale_l, dot_scale_r, <- Hcc; field; lra).
  assert (OWt : dot t W = 0) by (unfold W; rewrite dot_scale_r, cross_dot_r; ring).
  assert (UP : dot (cross t W) (cross t W) = 1) by (rewrite cross_sq, Ut, UW, OWt; ring).
  rewrite (Normalized_unit (cross t W)) by exact UP.
  set (M := mulm (ofCols W (cross t W) t) (M3 (cross u f) u f)).
  assert (O1 : dot W (cross t W) = 0) by apply cross_dot_r. assert (O2 : dot W t = 0) by (rewrite dot_comm; easy).
  assert (O3 : dot (cross t W) t = 0) by (rewrite dot_comm; apply cross_dot_l).
  assert (V : volume W (cross t W) t * volume (cross u f) u f = 1).
  { replace (volume W (cross t W) t) with (dot W W * dot t t - dot t W * dot t W) by (unfold cross; gunf; ring).
    replace (volume (cross u f) u f) with (dot (cross u f) (cross u f)) by (unfold cross; gunf; ring). rewrite UW, Ut, OWt, Ur. ring. }
  assert (Rot : rotation (apply M)).
  { apply frame_rotation; unfold orth, unitv; try easy; [rewrite dot_comm; apply cross_dot_l|rewrite dot_comm; apply cross_dot_r|rewrite dot_comm; easy]. }
  assert (E : OrthonormalizeCols M = M).
  { unfold OrthonormalizeCols. destruct (cols_apply M) as (C0 & C1 & C2). rewrite C0, C1, C2. destruct Rot as [D _].
    rewrite Orthonormalize3_id; [|unfold unitv, orth; rewrite D; unfold dot, ex, ey, ez; cbn; ring..].
    rewrite <- C0, <- C1, <- C2. destruct M as [[] [] []]. reflexivity. }
  rewrite E. split; [exact Rot|]. unfold M. split.
  - rewrite mulm_cols_rows. rewrite (dot_comm (cross u f) f), cross_dot_r, (dot_comm u f), Ofu, Uf. apply vec_ext; cbn; ring.
  - exists c. split; [lra|]. rewrite mulm_cols_rows. rewrite (dot_comm (cross u f) u), cross_dot_l, Ofu, Uu.
    replace (plus (plus (scale 0 W) (scale 1 (cross t W))) (scale 0 t)) with (cross t W) by (apply vec_ext; cbn; ring).
    unfold W. replace (scale c (cross t (scale (/ c) (cross w t)))) with (cross t (cross w t)) by (apply vec_ext; unfold cross; cbn; field; lra).
    transitivity (minus (scale (dot t t) w) (scale (dot w t) t)); [apply vec_ext; unfold cross; gunf; ring|]. rewrite Ut. f_equal. apply scale_1.
Qed.

(** ** Projection matrices *)
Ltac punf := cbv [D3DOrthoProjLH D3DOrthoProjRH D3DPerspProjLH D3DPerspProjRH OpenGLOrthoProjLH OpenGLOrthoProjRH OpenGLPerspProjLH OpenGLPerspProjRH
  projMat Transform4 dot4 hpoint r40 r41 r42 r43 w0 w1 w2 w3]; rsimpl.
Lemma range_div (x a b k : R) : 0 < k -> (a <= x / k <= b <-> a * k <= x <= b * k).
Proof.
  intros K. assert (E : x = x / k * k) by (field; lra). split; intros [A B].
  - rewrite E. nra.
  - split; apply (Rmult_le_reg_r k); try easy; rewrite <- E; lra.
Qed.
(** The clip coordinates of the orthographic and perspective matrices as functions of the depth. *)
Definition ortho_clip (zlo depth n f h v : R) (p : pt) : v4 R :=
  X4 (2 * vx p / h) (2 * vy p / v) (zlo + (1 - zlo) * (depth - n) / (f - n)) 1.
Definition persp_clip (zlo depth n f h v : R) (p : pt) : v4 R :=
  X4 (2 * n * vx p / h) (2 * n * vy p / v) ((f * (depth - n) + zlo * n * (f - depth)) / (f - n)) depth.
Lemma projections_clip (n f h v : R) (p : pt) : n <> f -> h <> 0 -> v <> 0 ->
  Transform4 (D3DOrthoProjLH n f h v) (hpoint p) = ortho_clip 0 (vz p) n f h v p /\
  Transform4 (D3DOrthoProjRH n f h v) (hpoint p) = ortho_clip 0 (- vz p) n f h v p /\
  Transform4 (OpenGLOrthoProjLH n f h v) (hpoint p) = ortho_clip (-1) (vz p) n f h v p /\
  Transform4 (OpenGLOrthoProjRH n f h v) (hpoint p) = ortho_clip (-1) (- vz p) n f h v p /\
  Transform4 (D3DPerspProjLH n f h v) (hpoint p) = persp_clip 0 (vz p) n f h v p /\
  Transform4 (D3DPerspProjRH n f h v) (hpoint p) = persp_clip 0 (- vz p) n f h v p /\
  Transform4 (OpenGLPerspProjLH n f h v) (hpoint p) = persp_clip (-1) (vz p) n f h v p /\
  Transform4 (OpenGLPerspProjRH n f h v) (hpoint p) = persp_clip (-1) (- vz p) n f h v p.
Proof.
  intros Hnf Hh Hv. assert (f - n <> 0) by lra. assert (n - f <> 0) by lra.
  repeat split; apply v4_ext; punf; unfold ortho_clip, persp_clip; cbn [w0 w1 w2 w3]; try field; easy.
Qed.
Lemma ortho_clip_volume (zlo depth n f h v : R) (p : pt) : zlo < 1 -> n < f -> 0 < h -> 0 < v ->
  (ortho_volume depth n f h v p <-> clip_cube zlo (ortho_clip zlo depth n f h v p)).
Proof.
  intros Z F Hh Hv. unfold ortho_volume, clip_cube, ortho_clip. cbn [w0 w1 w2 w3].
  replace (zlo + (1 - zlo) * (depth - n) / (f - n)) with ((zlo * (f - n) + (1 - zlo) * (depth - n)) / (f - n)) by (field; lra).
  rewrite !range_div by lra. split.
  - intros (A & B & C). split; [lra|]. split; [lra|]. split; [lra|]. nra.
  - intros (_ & B & C & D). split; [|lra]. nra.
Qed.
Lemma persp_clip_volume (zlo depth n f h v : R) (p : pt) : -1 <= zlo <= 0 -> 0 < n -> n < f -> 0 < h -> 0 < v ->
  (persp_volume depth n f h v p <-> clip_cube zlo (persp_clip zlo depth n f h v p)).
Proof.
  intros Z N F Hh Hv. unfold persp_volume, clip_cube, persp_clip. cbn [w0 w1 w2 w3]. rewrite !(range_div _ _ _ (f - n)), !(range_div _ _ _ h), !(range_div _ _ _ v) by lra.
  assert (E : forall x, 0 < depth -> x * (n / depth) = x * n / depth) by (intros; field; lra). split.
  - intros (A & B & C). assert (D0 : 0 < depth) by lra. rewrite !E, !range_div in B, C by easy. split; [easy|]. split; [lra|]. split; [lra|].
    assert (0 <= f * (1 - zlo) * (depth - n)) by (apply Rmult_le_pos; nra). assert (0 <= n * (1 - zlo) * (f - depth)) by (apply Rmult_le_pos; nra). lra.
  - intros (D0 & B & C & D). rewrite !E, !range_div by easy. split; [|lra].
    assert (0 < f * (1 - zlo)) by nra. assert (0 < n * (1 - zlo)) by nra.
    assert (0 <= f * (1 - zlo) * (depth - n)) by lra. assert (0 <= n * (1 - zlo) * (f - depth)) by lra. split; nra.
Qed.

(** ** SolveAxb gives up only when the matrix nearly annihilates some vector of length at least one *)
Definition small3 (e0 e1 e2 : pt) (y : pt) : Prop :=
  1 <= dot y y /\ Rabs (dot e0 y) < 1 / 1000 /\ Rabs (dot e1 y) < 1 / 1000 /\ Rabs (dot e2 y) < 1 / 1000.
Lemma EqualAbs_small (x : R) : EqualAbs x n0 (nlit 1 1000) = true -> Rabs x < 1 / 1000.
Proof. intros E. apply EqualAbs_R in E. cbn in E. now rewrite Rminus_0_r in E. Qed.
Lemma solve_tail_none (e0 e1 e2 : vec R * R) : Rabs (vx (fst e1)) <= Rabs (vx (fst e0)) -> Rabs (vx (fst e2)) <= Rabs (vx (fst e0)) ->
  solve_tail e0 e1 e2 = None -> exists y, small3 (fst e0) (fst e1) (fst e2) y.
Proof.
  destruct e0 as [[v00 v01 v02] b0], e1 as [[v10 v11 v12] b1], e2 as [[v20 v21 v22] b2]. cbn [fst vx]. intros P1 P2. unfold solve_tail.
  destruct (EqualAbs v00 n0 (nlit 1 1000)) eqn:C0.
  { intros _. apply EqualAbs_small in C0. exists (V3 1 0 0). unfold small3, dot; cbn [vx vy vz].
    replace (v00 * 1 + v01 * 0 + v02 * 0) with v00 by ring. replace (v10 * 1 + v11 * 0 + v12 * 0) with v10 by ring.
    replace (v20 * 1 + v21 * 0 + v22 * 0) with v20 by ring. lra. }
  apply EqualAbs_nz in C0; [|apply nlit_pos; lia]. cbv zeta.
  set (u11 := v11 - v10 * (v01 * (1 / v00))). set (u12 := v12 - v10 * (v02 * (1 / v00))).
  set (u21 := v21 - v20 * (v01 * (1 / v00))). set (u22 := v22 - v20 * (v02 * (1 / v00))).
  assert (Y : forall y1 y2, (1 <= y1 * y1 + y2 * y2) -> Rabs (u11 * y1 + u12 * y2) < 1 / 1000 -> Rabs (u21 * y1 + u22 * y2) < 1 / 1000 ->
    exists y, small3 (V3 v00 v01 v02) (V3 v10 v11 v12) (V3 v20 v21 v22) y).
  { intros y1 y2 L A1 A2. exists (V3 (- (v01 * (1 / v00)) * y1 - v02 * (1 / v00) * y2) y1 y2). unfold small3, dot. cbn [vx vy vz].
    split; [set (y0 := _ - _); nra|]. split; [|split].
    - match goal with |- Rabs ?x < _ => replace x with 0 by (field; easy) end. rewrite Rabs_R0. lra.
    - match goal with |- Rabs ?x < _ => replace x with (u11 * y1 + u12 * y2) by (unfold u11, u12; ring) end. easy.
    - match goal with |- Rabs ?x < _ => replace x with (u21 * y1 + u22 * y2) by (unfold u21, u22; ring) end. easy. }
  clearbody u11 u12 u21 u22.
  assert (G : forall w11 w12 (d1 : vec R) w21 w22, Rabs w21 <= Rabs w11 ->
    (forall y1 y2, (1 <= y1 * y1 + y2 * y2) -> Rabs (w11 * y1 + w12 * y2) < 1 / 1000 -> Rabs (w21 * y1 + w22 * y2) < 1 / 1000 ->
       exists y, small3 (V3 v00 v01 v02) (V3 v10 v11 v12) (V3 v20 v21 v22) y) ->
    (if EqualAbs w11 n0 (nlit 1 1000) then None else
     if EqualAbs (w22 - w21 * (w12 * (1 / w11))) n0 (nlit 1 1000) then None else Some d1) = None ->
    exists y, small3 (V3 v00 v01 v02) (V3 v10 v11 v12) (V3 v20 v21 v22) y).
  { clear Y. intros w11 w12 d1 w21 w22 P Y. destruct (EqualAbs w11 n0 (nlit 1 1000)) eqn:C1.
    - intros _. apply EqualAbs_small in C1. apply (Y 1 0); [lra|..].
      + replace (w11 * 1 + w12 * 0) with w11 by ring. easy.
      + replace (w21 * 1 + w22 * 0) with w21 by ring. lra.
    - apply EqualAbs_nz in C1; [|apply nlit_pos; lia]. destruct (EqualAbs _ n0 (nlit 1 1000)) eqn:C2; [|intros Q; discriminate Q].
      intros _. apply EqualAbs_small in C2. apply (Y (- (w12 * (1 / w11))) 1).
      + set (z := - _). nra.
      + match goal with |- Rabs ?x < _ => replace x with 0 by (field; easy) end. rewrite Rabs_R0. lra.
      + match goal with |- Rabs ?x < _ => replace x with (w22 - w21 * (w12 * (1 / w11))) by ring end. easy. }
  rewrite !Abs_R. cbn [nltb Num_R]. destruct (Rltb_spec (Rabs u11) (Rabs u21)) as [L|L].
  - intros Q. eapply (G u21 u22 _ u11 u12); [lra| |exact Q]. intros y1 y2 A B C. eapply Y; eassumption.
  - intros Q. eapply (G u11 u12 _ u21 u22); [lra| |exact Q]. exact Y.
Qed.
Lemma SolveAxb_none (m : mat3 R) b : SolveAxb m b = None -> exists y, small3 (row0 m) (row1 m) (row2 m) y.
Proof.
  unfold SolveAxb. rewrite !Abs_R. intros S. cbn [nleb Num_R] in S.
  destruct (Rleb_spec (Rabs (vx (row0 m))) (Rabs (vx (row1 m)))) as [L1|L1];
  destruct (Rleb_spec (Rabs (vx (row2 m))) (Rabs (vx (row1 m)))) as [L2|L2]; cbn [andb] in S.
  1:{ destruct (solve_tail_none (row1 m, vy b) (row0 m, vx b) (row2 m, vz b)) as (y & A & B & C & D); [easy|easy|exact S|].
      exists y. unfold small3. cbn [fst] in *. tauto. }
  all: destruct (Rleb_spec (Rabs (vx (row0 m))) (Rabs (vx (row2 m)))) as [L3|L3];
   [destruct (solve_tail_none (row2 m, vz b) (row1 m, vy b) (row0 m, vx b)) as (y & A & B & C & D); [cbn [fst]; lra|cbn [fst]; lra|exact S|]
   |destruct (solve_tail_none (row0 m, vx b) (row1 m, vy b) (row2 m, vz b)) as (y & A & B & C & D); [cbn [fst]; lra|cbn [fst]; lra|exact S|]];
   exists y; unfold small3; cbn [fst] in *; tauto.
Qed.
