(** C85: the cached matrices of frustums. *)
From Coq Require Import Reals Psatz List Bool Permutation.
From Verif Require Import Num NumR ScalarModel ScalarProofs Vec3Model GeoTypes GeoSpec GeoLemmas Vec3Props AabbModel AabbSpec AabbProofs AabbProps AabbProps2 MatModel MatSpec MatProofs MatProofs2 LineModel LineSpec LineProofs LineProofs2
  RotModel RotSpec RotProofs PlaneModel PlaneSpec PlaneProps SphereSpec ObbModel ObbProps ObbProps4 Vec2Model FrustumModel FrustumSpec FrustumProps FrustumProps2 FrustumProps3 FrustumProps4.
Import ListNotations.
Open Scope R_scope.
Ltac Zify.zify_post_hook ::= idtac.

(** ** The caches *)
(** The setters of the interface. *)
Inductive fop :=
  | OpKind (sp : frustumSpace) (h : frustumHandedness) | OpDistances (n d : R) | OpFrame (p fr u : pt) | OpPos (p : pt) | OpFront (fr : pt) | OpUp (u : pt)
  | OpPerspective (h v : R) | OpOrthographic (w h : R) | OpHorizontalFov (h a : R) | OpVerticalFov (v a : R) | OpWorldMatrix (w : mat34 R).
Definition fstep (f : frustum R) (o : fop) : frustum R :=
  match o with
  | OpKind sp h => SetKind f sp h | OpDistances n d => SetViewPlaneDistances f n d | OpFrame p fr u => SetFrame f p fr u | OpPos p => SetPos f p | OpFront fr => SetFront f fr | OpUp u => SetUp f u
  | OpPerspective h v => SetPerspective f h v | OpOrthographic w h => SetOrthographic f w h | OpHorizontalFov h a => SetHorizontalFovAndAspectRatio f h a | OpVerticalFov v a => SetVerticalFovAndAspectRatio f v a
  | OpWorldMatrix w => SetWorldMatrix f w
  end.
Definition coherent (f : frustum R) : Prop := worldMatrix f = ComputeWorldMatrix f /\ projectionMatrix f = ComputeProjectionMatrix f /\ viewProjMatrix f = ComputeViewProjMatrix f.
Lemma viewProj_alt f : ComputeViewProjMatrix f = viewProjOf (ComputeProjectionMatrix f) (ComputeWorldMatrix f).
Proof. unfold ComputeViewProjMatrix, viewProjOf, ComputeViewMatrix. destruct (ComputeProjectionMatrix f), (ComputeWorldMatrix f); reflexivity. Qed.
Lemma viewProj_none P : @viewProjOf R Num_R P None = None. Proof. destruct P; reflexivity. Qed.
Lemma world_changed f : projectionMatrix f = ComputeProjectionMatrix f -> coherent (WorldMatrixChanged f).
Proof.
  intros P. unfold coherent. rewrite viewProj_alt. change (ComputeProjectionMatrix (WorldMatrixChanged f)) with (ComputeProjectionMatrix f). change (ComputeWorldMatrix (WorldMatrixChanged f)) with (ComputeWorldMatrix f).
  unfold WorldMatrixChanged, setMatrices. cbn [worldMatrix projectionMatrix viewProjMatrix]. rewrite P. repeat split.
Qed.
Lemma projection_changed f : worldMatrix f = ComputeWorldMatrix f -> (worldMatrix f = None -> viewProjMatrix f = None) -> coherent (ProjectionMatrixChanged f).
Proof.
  intros W V. unfold coherent. rewrite viewProj_alt. change (ComputeProjectionMatrix (ProjectionMatrixChanged f)) with (ComputeProjectionMatrix f). change (ComputeWorldMatrix (ProjectionMatrixChanged f)) with (ComputeWorldMatrix f).
  unfold ProjectionMatrixChanged, setMatrices. cbn [worldMatrix projectionMatrix viewProjMatrix]. split; [exact W|]. split; [reflexivity|]. rewrite <- W. destruct (worldMatrix f); [reflexivity|]. rewrite viewProj_none. now apply V.
Qed.
Lemma step_coherent f o : coherent f -> coherent (fstep f o).
Proof.
  intros (W & P & V). assert (VN : worldMatrix f = None -> viewProjMatrix f = None) by (intros E; rewrite V, viewProj_alt, <- W, E; apply viewProj_none).
  destruct o; cbn [fstep].
  - unfold SetKind. destruct (hasUp f) eqn:U.
    + set (g := Frustum _ _ _ _ _ _ _ _ _ _ _ _ _ _ _ _ _). apply projection_changed.
      * reflexivity.
      * unfold WorldMatrixChanged, setMatrices. cbn [worldMatrix viewProjMatrix]. intros ->. apply viewProj_none.
    + set (g := Frustum _ _ _ _ _ _ _ _ _ _ _ _ _ _ _ _ _). assert (WN : ComputeWorldMatrix f = None) by (unfold ComputeWorldMatrix; rewrite U, andb_false_r; reflexivity).
      apply projection_changed; [|exact VN]. change (worldMatrix g) with (worldMatrix f). rewrite W, WN. unfold ComputeWorldMatrix, g. cbn [hasPos hasFront hasUp]. rewrite andb_false_r. reflexivity.
  - apply projection_changed; [exact W|exact VN].
  - apply world_changed. exact P.
  - apply world_changed. exact P.
  - apply world_changed. exact P.
  - apply world_changed. exact P.
  - apply projection_changed; [exact W|exact VN].
  - apply projection_changed; [exact W|exact VN].
  - apply projection_changed; [exact W|exact VN].
  - apply projection_changed; [exact W|exact VN].
  - apply world_changed. exact P.
Qed.
(** After any sequence of setter calls, the cached matrices are what would be computed now. *)
Theorem C85_caches (z : R) (ops : list fop) : coherent (fold_left fstep ops (Frustum_new z)).
Proof.
  assert (G : forall l f, coherent f -> coherent (fold_left fstep l f)) by (intros l; induction l as [|o l IH]; intros f C; [exact C|]; apply IH, step_coherent, C).
  apply G. split; [reflexivity|]. split; reflexivity.
Qed.
Print Assumptions C85_caches.

(** ** World and view matrices *)
Definition zdir (f : frustum R) : R := if rightHanded f then -1 else 1.
Lemma worldOf_R f : frustum_ok f -> worldOf f = M34 (ofCols (fright f) (fup f) (scale (zdir f) (ffront f))) (fpos f).
Proof.
  intros K. destruct (dot_right_front f K) as (_ & _ & _ & RR & _). unfold worldOf. rewrite WorldRight_R, Normalized_unit by exact RR. unfold zdir. destruct (rightHanded f); [rewrite vneg_R; reflexivity|rewrite scale_1; reflexivity].
Qed.
Lemma apply_cols (a b c w : pt) : apply (ofCols a b c) w = plus (scale (vx w) a) (plus (scale (vy w) b) (scale (vz w) c)).
Proof. unfold apply, ofCols, plus, scale. munf. apply vec_ext; cbn [vx vy vz row0 row1 row2]; rsimpl; unfold dot; cbn [vx vy vz]; ring. Qed.
Lemma world_cols f : frustum_ok f -> orthonormal_cols (lin34 (worldOf f)).
Proof.
  intros K. rewrite (worldOf_R f K). cbn [lin34]. destruct (dot_right_front f K) as (RF & RU & UF & RR & UU & FF). set (s := zdir f). assert (S : s * s = 1) by (unfold s, zdir; destruct (rightHanded f); ring).
  intros u v. rewrite !apply_cols, !scale_scale.
  rewrite !dot_plus_l, !dot_plus_r, !dot_scale_l, !dot_scale_r, (dot_comm (ffront f) (fright f)), (dot_comm (ffront f) (fup f)), (dot_comm (fup f) (fright f)), RF, RU, UF, RR, UU, FF. unfold dot. transitivity (vx u * vx v + vy u * vy v + vz u * vz v * (s * s)); [ring|rewrite S; ring].
Qed.
(** The world matrix takes camera coordinates to the point seen there, it is a rotation with a translation, the view matrix is its inverse, and setting the world matrix is inverse to reading it. *)
Theorem C85_world (f : frustum R) : frustum_ok f -> hasPos f = true -> hasFront f = true -> hasUp f = true -> exists W V, ComputeWorldMatrix f = Some W /\ ComputeViewMatrix f = Some V /\
  rotation (apply (lin34 W)) /\ (forall x y z, apply34 W (V3 x y (zdir f * z)) = view_point f x y z) /\ (forall p, apply34 V p = V3 (view_x f p) (view_y f p) (zdir f * depth f p)) /\ inverses34 W V /\
  (let g := SetWorldMatrix f W in fpos g = fpos f /\ ffront g = ffront f /\ fup g = fup f).
Proof.
  intros K HP HF HU. exists (worldOf f), (InverseOrthonormal34 (worldOf f)). unfold ComputeViewMatrix, ComputeWorldMatrix. rewrite HP, HF, HU. cbn [andb option_map]. split; [reflexivity|]. split; [reflexivity|].
  pose proof (world_cols f K) as OC. destruct (dot_right_front f K) as (RF & RU & UF & RR & UU & FF). assert (S : zdir f * zdir f = 1) by (unfold zdir; destruct (rightHanded f); ring).
  assert (A : forall x y z, apply34 (worldOf f) (V3 x y (zdir f * z)) = view_point f x y z).
  { intros x y z. rewrite (worldOf_R f K). unfold apply34. cbn [lin34 trans34]. rewrite apply_cols. cbn [vx vy vz]. rewrite scale_scale. replace (zdir f * z * zdir f) with z by (transitivity (z * (zdir f * zdir f)); [rewrite S; ring|ring]).
    unfold view_point. apply vec_ext; unfold plus, scale; cbn [vx vy vz]; ring. }
  assert (IV : inverses34 (worldOf f) (InverseOrthonormal34 (worldOf f))) by now apply InverseOrthonormal34_correct.
  split; [|split; [exact A|split; [|split; [exact IV|]]]].
  - split; [exact OC|]. intros a b c. rewrite (worldOf_R f K). cbn [lin34].
    assert (D : volume (fright f) (fup f) (scale (zdir f) (ffront f)) = 1).
    { assert (VT : forall a b c, volume a b c = dot (cross a b) c) by (intros; unfold volume, cross, dot; cbn [vx vy vz]; ring). rewrite VT, dot_scale_r. unfold fright, zdir, rightHanded in *. change xprod with cross in *.
      destruct K as (U1 & U2 & O & _). unfold orth, unitv in *. assert (O' : dot (fup f) (ffront f) = 0) by (rewrite dot_comm; exact O).
      destruct (fhand f); rewrite cross_cross_l, dot_minus_l, !dot_scale_l, ?U1, ?U2, ?O, ?O'; ring. }
    transitivity (volume (fright f) (fup f) (scale (zdir f) (ffront f)) * volume a b c); [|rewrite D; ring].
    generalize (fright f) (fup f) (scale (zdir f) (ffront f)). intros e1 e2 e3. rewrite !apply_cols. unfold volume, plus, scale. cbn [vx vy vz]. ring.
  - intros p. rewrite <- (point_of_view f p K) at 1. rewrite <- A. apply IV.
  - rewrite (worldOf_R f K). unfold SetWorldMatrix, SetFrame, WorldMatrixChanged, setMatrices. cbn [fpos ffront fup trans34 lin34]. unfold zdir in *. destruct (rightHanded f) eqn:RH; (split; [reflexivity|]); (split; [|apply vec_ext; reflexivity]); apply vec_ext; unfold scale; munf; cbn [vx vy vz col2 ofCols row0 row1 row2]; rsimpl; ring.
Qed.
Print Assumptions C85_world.
