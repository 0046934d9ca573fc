(** C84 continued: transforms of frustums, and concrete frustums. *)
From Coq Require Import Reals Psatz List Bool Permutation.
From Verif Require Import Num NumR ScalarModel ScalarProofs Vec3Model GeoTypes GeoSpec GeoLemmas Vec3Props AabbModel AabbSpec AabbProofs AabbProps AabbProps2 MatModel MatSpec MatProofs MatProofs2 LineModel LineSpec LineProofs LineProofs2
  RotModel RotSpec RotProofs PlaneModel PlaneSpec PlaneProps SphereSpec ObbModel ObbProps ObbProps4 Vec2Model FrustumModel FrustumSpec FrustumProps FrustumProps2 FrustumProps3.
Import ListNotations.
Open Scope R_scope.
Ltac Zify.zify_post_hook ::= idtac.

(** The square of the triple product is the Gram determinant, so maps that scale all products by the same factor scale triple products up to sign. *)
Lemma gram (a b c : pt) : dot (cross a b) c * dot (cross a b) c =
  dot a a * (dot b b * dot c c - dot b c * dot b c) - dot a b * (dot a b * dot c c - dot b c * dot a c) + dot a c * (dot a b * dot b c - dot b b * dot a c).
Proof. unfold cross, dot. cbn [vx vy vz]. ring. Qed.
Lemma triple_scaled (L : pt -> pt) s (a b c : pt) : 0 < s -> (forall u v, dot (L u) (L v) = s * s * dot u v) -> Rabs (dot (cross (L a) (L b)) (L c)) = s * s * s * Rabs (dot (cross a b) c).
Proof.
  intros S H. rewrite <- (Rabs_right (s * s * s)) by nra. rewrite <- Rabs_mult. apply Rsqr_eq_abs_0. unfold Rsqr. rewrite gram, !H. transitivity (s * s * s * (s * s * s) * (dot (cross a b) c * dot (cross a b) c)); [rewrite gram; ring|ring].
Qed.
Section Similarity.
  Context (f : frustum R) (K : frustum_ok f) (mp L : pt -> pt) (s : R) (S : 1 / 1000000 < s) (LP : forall u v, dot (L u) (L v) = s * s * dot u v) (MP : forall p q, minus (mp p) (mp q) = L (minus p q)).
  Let g := frustumTransform f mp L.
  Lemma transform_R : g = Frustum (ftype f) (fspace f) (fhand f) (mp (fpos f)) (scale (/ s) (L (ffront f))) (scale (/ s) (L (fup f))) (fnear f * s) (ffar f * s)
      (match ftype f with OrthographicFrustum => fhw f * s | _ => fhw f end) (match ftype f with OrthographicFrustum => fvh f * s | _ => fvh f end) (hasPos f) (hasFront f) (hasUp f) (hasDist f) (worldMatrix f) (projectionMatrix f) (viewProjMatrix f).
  Proof.
    destruct K as (U1 & U2 & _). assert (NL : forall v, unitv v -> norm (L v) = s) by (intros v U; unfold norm; rewrite LP, U, Rmult_1_r; apply sqrt_square; lra).
    unfold g, frustumTransform. rewrite Normalize_R, (NL _ U1). unfold eps6. rewrite (proj2 (Rltb_true _ _)) by lra.
    rewrite (Normalized_R (L (fup f))) by (rewrite NL by exact U2; lra). rewrite (NL _ U2). destruct (ftype f); reflexivity.
  Qed.
  Lemma transform_ok : frustum_ok g.
  Proof.
    rewrite transform_R. destruct K as (U1 & U2 & O & N & T). unfold frustum_ok. cbn [ffront fup fnear ffar ftype fhw fvh]. unfold unitv, orth in *. rewrite !dot_scale_l, !dot_scale_r, !LP, U1, U2, O.
    split; [field; lra|]. split; [field; lra|]. split; [ring|]. split; [nra|]. destruct (ftype f); [contradiction|nra|exact T].
  Qed.
  Lemma transform_region p : in_frustum g (mp p) <-> in_frustum f p.
  Proof.
    assert (SP : 0 < s) by lra. assert (IS : s * / s = 1) by (field; lra).
    assert (D : depth g (mp p) = s * depth f p) by (rewrite transform_R; unfold depth; cbn [ffront fpos]; rewrite MP, dot_scale_r, LP; transitivity (s * / s * s * dot (minus p (fpos f)) (ffront f)); [ring|rewrite IS; ring]).
    assert (VY : view_y g (mp p) = s * view_y f p) by (rewrite transform_R; unfold view_y; cbn [fup fpos]; rewrite MP, dot_scale_r, LP; transitivity (s * / s * s * dot (minus p (fpos f)) (fup f)); [ring|rewrite IS; ring]).
    assert (VX : Rabs (view_x g (mp p)) = s * Rabs (view_x f p)).
    { rewrite transform_R. unfold view_x, fright. cbn [fhand fpos ffront fup]. change xprod with cross. rewrite MP.
      assert (E : forall a b c, Rabs (dot (L c) (cross (scale (/ s) (L a)) (scale (/ s) (L b)))) = s * Rabs (dot c (cross a b))).
      { intros a b c. rewrite cross_scale_l, cross_scale_r, !dot_scale_r, (dot_comm (L c)), (dot_comm c). rewrite !Rabs_mult, (triple_scaled L s a b c SP LP), Rabs_right by (left; now apply Rinv_0_lt_compat).
        transitivity (s * / s * (s * / s) * s * Rabs (dot (cross a b) c)); [ring|rewrite IS; ring]. }
      destruct (fhand f); apply E. }
    assert (W : half_w g (s * depth f p) = s * half_w f (depth f p) /\ half_h g (s * depth f p) = s * half_h f (depth f p)) by (rewrite transform_R; unfold half_w, half_h; cbn [ftype fhw fvh]; destruct K as (_ & _ & _ & _ & T); destruct (ftype f); [contradiction|split; field|split; ring]).
    assert (AB : forall x w, (- w <= x <= w) <-> Rabs x <= w) by (intros x w; split; [intros; apply Rabs_le; lra|apply Rabs_le_inv2]).
    unfold in_frustum. rewrite D, VY, (proj1 W), (proj2 W), !(AB (view_x _ _)), VX. rewrite transform_R. cbn [fnear ffar].
    assert (M : forall a b, s * a <= s * b <-> a <= b) by (intros; split; intros; nra).
    pose proof (M (fnear f) (depth f p)). pose proof (M (depth f p) (ffar f)). pose proof (M (Rabs (view_x f p)) (half_w f (depth f p))). pose proof (M (view_y f p) (half_h f (depth f p))). pose proof (M (- half_h f (depth f p)) (view_y f p)).
    replace (fnear f * s) with (s * fnear f) by ring. replace (ffar f * s) with (s * ffar f) by ring. replace (- (s * half_h f (depth f p))) with (s * - half_h f (depth f p)) by ring. tauto.
  Qed.
End Similarity.
(** Translating moves the region along.  Transforming by a matrix that scales all directions equally (a rotation or reflection, with a scale) gives a
    properly set up frustum whose region is the image of the old one. *)
Theorem C84_transform (f : frustum R) : frustum_ok f ->
  (forall off, frustum_ok (Frustum_Translate f off) /\ forall p, in_frustum (Frustum_Translate f off) (plus p off) <-> in_frustum f p) /\
  (forall (m : mat3 R) s, 1 / 1000000 < s -> (forall u v, dot (mulv m u) (mulv m v) = s * s * dot u v) -> frustum_ok (Frustum_Transform3 f m) /\ forall p, in_frustum (Frustum_Transform3 f m) (mulv m p) <-> in_frustum f p) /\
  (forall (m : mat34 R) s, 1 / 1000000 < s -> (forall u v, dot (muldir34 m u) (muldir34 m v) = s * s * dot u v) -> frustum_ok (Frustum_Transform34 f m) /\ forall p, in_frustum (Frustum_Transform34 f m) (mulpos34 m p) <-> in_frustum f p) /\
  (forall q : quat R, unitq q -> frustum_ok (Frustum_TransformQuat f q) /\ forall p, in_frustum (Frustum_TransformQuat f q) (QTransform q p) <-> in_frustum f p).
Proof.
  intros K. split; [|split; [|split]].
  - intros off. split; [exact K|]. intros p. unfold in_frustum, depth, view_x, view_y, half_w, half_h, fright, Frustum_Translate. cbn [fpos ffront fup fnear ffar fhand ftype fhw fvh].
    replace (minus (plus p off) (vadd (fpos f) off)) with (minus p (fpos f)); [reflexivity|]. apply vec_ext; unfold minus, plus; vunf; ring.
  - intros m s S LP. assert (MP : forall p q, minus (mulv m p) (mulv m q) = mulv m (minus p q)) by (intros; apply vec_ext; unfold minus; vunf; unfold mulv; vunf; rsimpl; ring). split; [now apply (transform_ok f K (mulv m) (mulv m) s)|]. intros p. now apply (transform_region f K (mulv m) (mulv m) s).
  - intros m s S LP. assert (MP : forall p q, minus (mulpos34 m p) (mulpos34 m q) = muldir34 m (minus p q)) by (intros; apply vec_ext; unfold minus, mulpos34, muldir34, mulv; vunf; unfold mulv; vunf; rsimpl; ring).
    split; [now apply (transform_ok f K (mulpos34 m) (muldir34 m) s)|]. intros p. now apply (transform_region f K (mulpos34 m) (muldir34 m) s).
  - intros q U. pose proof (quat_rotation q U) as RQ. set (m := FromQuat q). assert (LP : forall u v, dot (mulv m u) (mulv m v) = 1 * 1 * dot u v) by (intros u v; rewrite !Rmult_1_l; apply RQ).
    assert (MP : forall p q, minus (mulv m p) (mulv m q) = mulv m (minus p q)) by (intros; apply vec_ext; unfold minus; vunf; unfold mulv; vunf; rsimpl; ring).
    split; [apply (transform_ok f K (mulv m) (mulv m) 1); [lra|exact LP]|]. intros p. assert (S1 : 1 / 1000000 < 1) by lra. exact (transform_region f K (mulv m) (mulv m) 1 S1 LP MP p).
Qed.
Print Assumptions C84_transform.

(** A camera at the origin looking down -z with a right angle of view, and an orthographic one: both are properly set up, and points inside and outside are as expected. *)
Definition camera (t : frustumType) (sp : frustumSpace) (h : frustumHandedness) : frustum R :=
  match t with
  | PerspectiveFrustum => SetPerspective (SetFrame (SetViewPlaneDistances (SetKind (Frustum_new 0) sp h) 1 10) (V3 0 0 0) (V3 0 0 (-1)) (V3 0 1 0)) (PI / 2) (PI / 2)
  | _ => SetOrthographic (SetFrame (SetViewPlaneDistances (SetKind (Frustum_new 0) sp h) 1 10) (V3 0 0 0) (V3 0 0 (-1)) (V3 0 1 0)) 4 2
  end.
Lemma camera_ok t sp h : frustum_ok (camera t sp h).
Proof.
  pose proof PI_RGT_0. destruct t; (split; [unfold unitv, dot; cbn; ring|]; split; [unfold unitv, dot; cbn; ring|]; split; [unfold orth, dot; cbn; ring|]; split; [cbn; lra|]); cbn; lra.
Qed.
Example C84_witness : frustum_ok (camera PerspectiveFrustum FrustumSpaceGL FrustumRightHanded) /\ in_frustum (camera PerspectiveFrustum FrustumSpaceGL FrustumRightHanded) (V3 3 (-4) (-5)) /\
  ~ in_frustum (camera PerspectiveFrustum FrustumSpaceGL FrustumRightHanded) (V3 3 (-4) (-2)) /\ frustum_ok (camera OrthographicFrustum FrustumSpaceD3D FrustumLeftHanded) /\
  in_frustum (camera OrthographicFrustum FrustumSpaceD3D FrustumLeftHanded) (V3 2 1 (-2)) /\ ~ in_frustum (camera OrthographicFrustum FrustumSpaceD3D FrustumLeftHanded) (V3 1 2 (-2)).
Proof.
  assert (T : tan (PI / 2 / 2) = 1) by (replace (PI / 2 / 2) with (PI / 4) by field; apply tan_PI4).
  split; [apply camera_ok|]. split; [|split; [|split; [apply camera_ok|]]]; unfold in_frustum, half_w, half_h, depth, view_x, view_y, fright, xprod, dot, minus; cbn; rewrite ?T; lra.
Qed.
