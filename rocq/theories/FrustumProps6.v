(** C85 continued: projecting and testing points. *)
From Coq Require Import Reals Psatz List Bool Permutation.
From Verif Require Import Num NumR ScalarModel ScalarProofs Vec3Model GeoTypes GeoSpec GeoLemmas Vec3Props AabbModel AabbSpec AabbProofs AabbProps AabbProps2 MatModel MatSpec MatProofs MatProofs2 LineModel LineSpec LineProofs LineProofs2
  RotModel RotSpec RotProofs PlaneModel PlaneSpec PlaneProps SphereSpec ObbModel ObbProps ObbProps4 Vec2Model FrustumModel FrustumSpec FrustumProps FrustumProps2 FrustumProps3 FrustumProps4 FrustumProps5.
Import ListNotations.
Open Scope R_scope.
Ltac Zify.zify_post_hook ::= idtac.

(** Any rotation can be set as the world matrix, and is then read back unchanged. *)
Theorem C85_set_world (f : frustum R) (W : mat34 R) : rotation (apply (lin34 W)) -> ComputeWorldMatrix (SetWorldMatrix f W) = Some W /\ worldMatrix (SetWorldMatrix f W) = Some W.
Proof.
  intros (RD & RV). assert (G : ComputeWorldMatrix (SetWorldMatrix f W) = Some W); [|split; [exact G|exact G]].
  unfold ComputeWorldMatrix. cbn [SetWorldMatrix SetFrame WorldMatrixChanged setMatrices hasPos hasFront hasUp andb]. f_equal.
  destruct W as [m t]. cbn [lin34] in *. set (c0 := col0 m). set (c1 := col1 m). set (c2 := col2 m).
  assert (E0 : apply m (V3 1 0 0) = c0) by (unfold c0, apply, dot; munf; apply vec_ext; cbn [vx vy vz]; ring). assert (E1 : apply m (V3 0 1 0) = c1) by (unfold c1, apply, dot; munf; apply vec_ext; cbn [vx vy vz]; ring). assert (E2 : apply m (V3 0 0 1) = c2) by (unfold c2, apply, dot; munf; apply vec_ext; cbn [vx vy vz]; ring).
  assert (N0 : dot c0 c0 = 1) by (rewrite <- E0, RD; unfold dot; cbn; ring). assert (N1 : dot c1 c1 = 1) by (rewrite <- E1, RD; unfold dot; cbn; ring). assert (N2 : dot c2 c2 = 1) by (rewrite <- E2, RD; unfold dot; cbn; ring).
  assert (D12 : dot c1 c2 = 0) by (rewrite <- E1, <- E2, RD; unfold dot; cbn; ring). assert (VO : volume c0 c1 c2 = 1) by (rewrite <- E0, <- E1, <- E2, RV; unfold volume; cbn; ring).
  assert (CR : cross c1 c2 = c0).
  { assert (Z : dot (minus (cross c1 c2) c0) (minus (cross c1 c2) c0) = 0).
    { rewrite dot_minus_l, !dot_minus_r, cross_sq, N1, N2, D12, N0, (dot_comm c0). assert (V' : dot (cross c1 c2) c0 = 1) by (rewrite <- VO; unfold volume, cross, dot; cbn [vx vy vz]; ring). rewrite V'. ring. }
    assert (NZ : norm (minus (cross c1 c2) c0) = 0) by (unfold norm; rewrite Z; apply sqrt_0). apply norm_zero in NZ. unfold minus, origin in NZ. apply vec_ext; [apply (f_equal vx) in NZ|apply (f_equal vy) in NZ|apply (f_equal vz) in NZ]; cbn [vx vy vz] in NZ; lra. }
  unfold worldOf. assert (RW : WorldRight (SetWorldMatrix f (M34 m t)) = c0).
  { unfold WorldRight. change (rightHanded (SetWorldMatrix f (M34 m t))) with (rightHanded f). unfold SetWorldMatrix, SetFrame, WorldMatrixChanged, setMatrices. cbn [ffront fup lin34 trans34]. fold c1 c2. rewrite <- CR. destruct (rightHanded f); change (@Cross R Num_R) with cross; [|reflexivity]. rewrite vneg_R, cross_scale_l, (cross_anti c2), scale_scale. replace (-1 * -1) with 1 by ring. apply scale_1. }
  rewrite RW, Normalized_unit by exact N0. change (rightHanded (SetWorldMatrix f (M34 m t))) with (rightHanded f). cbn [SetWorldMatrix SetFrame WorldMatrixChanged setMatrices ffront fup fpos lin34 trans34]. fold c1 c2. f_equal.
  transitivity (ofCols c0 c1 c2); [destruct (rightHanded f); [f_equal; rewrite !vneg_R, scale_scale; replace (-1 * -1) with 1 by ring; apply scale_1|reflexivity]|]. unfold c0, c1, c2. destruct m as [[] [] []]. reflexivity.
Qed.
Print Assumptions C85_set_world.

(** A frustum on which everything has been set. *)
Definition ready (f : frustum R) : Prop := frustum_ok f /\ coherent f /\ hasPos f = true /\ hasFront f = true /\ hasUp f = true /\ hasDist f = true /\ fspace f <> FrustumSpaceInvalid /\ fhand f <> FrustumHandednessInvalid.
Definition zlow (f : frustum R) : R := match fspace f with FrustumSpaceD3D => 0 | _ => -1 end.
Lemma transform_34 (P : mat4 R) (V : mat34 R) p : Transform4 (mulm4_34 P V) (hpoint p) = Transform4 P (hpoint (apply34 V p)).
Proof.
  destruct P as [[] [] [] []], V as [[[] [] []] []], p. unfold Transform4, mulm4_34, mulRow4_34, hpoint, apply34, apply, plus, dot, dot4. cbn. rsimpl. f_equal; ring.
Qed.
Lemma near_width f : frustum_ok f -> NearPlaneWidth f = 2 * half_w f (fnear f) /\ NearPlaneHeight f = 2 * half_h f (fnear f).
Proof. intros (_ & _ & _ & _ & K). unfold NearPlaneWidth, NearPlaneHeight, persp, half_w, half_h. rewrite !Tan_R. rsimpl. destruct (ftype f); [contradiction|split; field|split; ring]. Qed.
Lemma project_clip f p : ready f -> exists M, viewProjMatrix f = Some M /\
  exists z, Transform4 M (hpoint p) = (match ftype f with PerspectiveFrustum => persp_clip | _ => ortho_clip end) (zlow f) (depth f p) (fnear f) (ffar f) (2 * half_w f (fnear f)) (2 * half_h f (fnear f)) (V3 (view_x f p) (view_y f p) z).
Proof.
  intros (K & (CW & CP & CV) & HP & HF & HU & HD & SP & HN). destruct (C85_world f K HP HF HU) as (W & V & EW & EV & _ & _ & AV & _). pose proof K as (_ & _ & _ & N & T). destruct (half_pos f (fnear f) K) as (WP & HPo); [lra|].
  destruct (near_width f K) as (NW & NH). rewrite CV. unfold ComputeViewProjMatrix. rewrite EV. unfold ComputeProjectionMatrix. rewrite HD, NW, NH.
  assert (OW : ftype f = OrthographicFrustum -> fhw f = 2 * half_w f (fnear f) /\ fvh f = 2 * half_h f (fnear f)) by (intros E; unfold half_w, half_h; rewrite E; split; field).
  set (w := 2 * half_w f (fnear f)) in *. set (h := 2 * half_h f (fnear f)) in *. assert (w <> 0) by (unfold w; lra). assert (h <> 0) by (unfold h; lra).
  destruct (projections_clip (fnear f) (ffar f) w h (V3 (view_x f p) (view_y f p) (zdir f * depth f p))) as (P1 & P2 & P3 & P4 & P5 & P6 & P7 & P8); [lra|assumption|assumption|]. cbn [vx vy vz] in *. unfold zlow.
  destruct (ftype f) eqn:TY; [contradiction| |].
  - destruct (OW eq_refl) as (-> & ->). destruct (fspace f); [contradiction| |]; destruct (fhand f) eqn:HH; try contradiction; (eexists; split; [reflexivity|]; eexists; rewrite transform_34, AV; unfold zdir, rightHanded in *; rewrite HH in *); replace (- (-1 * depth f p)) with (depth f p) in * by ring; replace (1 * depth f p) with (depth f p) in * by ring; eassumption.
  - destruct (fspace f); [contradiction| |]; destruct (fhand f) eqn:HH; try contradiction; (eexists; split; [reflexivity|]; eexists; rewrite transform_34, AV; unfold zdir, rightHanded in *; rewrite HH in *); replace (- (-1 * depth f p)) with (depth f p) in * by ring; replace (1 * depth f p) with (depth f p) in * by ring; eassumption.
Qed.
(** What [Project] returns. *)
Definition clip_depth (f : frustum R) (d : R) : R :=
  match ftype f with
  | PerspectiveFrustum => (ffar f * (d - fnear f) + zlow f * fnear f * (ffar f - d)) / ((ffar f - fnear f) * d)
  | _ => zlow f + (1 - zlow f) * (d - fnear f) / (ffar f - fnear f)
  end.
Lemma project_R f p : ready f -> (ftype f = PerspectiveFrustum -> 1 / 1000000 < Rabs (depth f p)) ->
  Frustum_Project f p = Some (V3 (view_x f p / half_w f (depth f p)) (view_y f p / half_h f (depth f p)) (clip_depth f (depth f p))).
Proof.
  intros RD W0. destruct (project_clip f p RD) as (M & EM & z & E). destruct RD as (K & _). pose proof K as (_ & _ & _ & N & T). destruct (half_pos f (fnear f) K) as (WP & HPo); [lra|].
  unfold Frustum_Project. rewrite EM. cbn [option_map]. f_equal. change (x34 p n1) with (hpoint p). rewrite E. unfold NormalizeW, clip_depth, half_w, half_h in *. rewrite Abs_R. destruct (ftype f) eqn:TY; [contradiction| |].
  - cbn [ortho_clip w3 w0 w1 w2]. change (nltb (nlit 1 1000000) (Rabs 1)) with (Rltb (nlit 1 1000000) (Rabs 1)). rewrite (proj2 (Rltb_true _ _)) by (rewrite nlit_R, Rabs_R1; lra). unfold xyz4. cbn [w0 w1 w2 vx vy vz]. rsimpl. apply vec_ext; cbn [vx vy vz]; field; lra.
  - specialize (W0 eq_refl). assert (D0 : depth f p <> 0) by (intros E0; rewrite E0, Rabs_R0 in W0; lra). pose proof (tan_half _ (proj1 T)). pose proof (tan_half _ (proj2 T)).
    cbn [persp_clip w3 w0 w1 w2]. change (nltb (nlit 1 1000000) (Rabs (depth f p))) with (Rltb (nlit 1 1000000) (Rabs (depth f p))). rewrite (proj2 (Rltb_true _ _)) by (rewrite nlit_R; lra). unfold xyz4. cbn [w0 w1 w2 vx vy vz]. rsimpl. apply vec_ext; cbn [vx vy vz]; field; lra.
Qed.
Lemma clip_depth_ends f : frustum_ok f -> clip_depth f (fnear f) = zlow f /\ clip_depth f (ffar f) = 1.
Proof. intros (_ & _ & _ & N & T). unfold clip_depth. destruct (ftype f); split; field; lra. Qed.
Lemma clip_depth_mono f d e : frustum_ok f -> (ftype f = PerspectiveFrustum -> 0 < d) -> d < e -> clip_depth f d < clip_depth f e.
Proof.
  intros (_ & _ & _ & N & T) D L. unfold clip_depth. assert (Z : zlow f < 1) by (unfold zlow; destruct (fspace f); lra). assert (IP : 0 < / (ffar f - fnear f)) by (apply Rinv_0_lt_compat; lra).
  destruct (ftype f); [contradiction| |].
  - apply Rplus_lt_compat_l. unfold Rdiv. apply Rmult_lt_compat_r; [exact IP|]. apply Rmult_lt_compat_l; lra.
  - specialize (D eq_refl). assert (E : forall x, 0 < x -> (ffar f * (x - fnear f) + zlow f * fnear f * (ffar f - x)) / ((ffar f - fnear f) * x) = (ffar f - zlow f * fnear f) / (ffar f - fnear f) - (1 - zlow f) * fnear f * ffar f / (ffar f - fnear f) * / x) by (intros; field; lra).
    rewrite !E by lra. apply Rplus_lt_compat_l, Ropp_lt_contravar. apply Rmult_lt_compat_l; [|apply Rinv_lt_contravar; [nra|lra]]. unfold Rdiv. apply Rmult_lt_0_compat; [|exact IP]. apply Rmult_lt_0_compat; nra.
Qed.
(** Projection to normalized viewport coordinates: the cross section at each depth is spread over [-1, 1] x [-1, 1], the depth coordinate grows with the depth from
    its low end on the near plane to 1 on the far plane, and so the region is exactly what projects into the viewport volume; [NearPlanePos], [FarPlanePos] and [PointInside] are inverse to it. *)
Theorem C85_project (f : frustum R) : ready f -> 1 / 1000000 < fnear f ->
  (forall p, (ftype f = PerspectiveFrustum -> 1 / 1000000 < depth f p) -> exists q, Frustum_Project f p = Some q /\ view_x f p = vx q * half_w f (depth f p) /\ view_y f p = vy q * half_h f (depth f p) /\
     (in_frustum f p <-> -1 <= vx q <= 1 /\ -1 <= vy q <= 1 /\ zlow f <= vz q <= 1)) /\
  (forall p p' q q', (ftype f = PerspectiveFrustum -> 1 / 1000000 < depth f p) -> Frustum_Project f p = Some q -> Frustum_Project f p' = Some q' -> depth f p < depth f p' -> vz q < vz q') /\
  (forall x y, Frustum_Project f (NearPlanePos f x y) = Some (V3 x y (zlow f)) /\ Frustum_Project f (FarPlanePos f x y) = Some (V3 x y 1)) /\
  (forall x y z, 0 <= z -> exists c, Frustum_Project f (Frustum_PointInside f x y z) = Some (V3 x y c)).
Proof.
  intros RD NE. pose proof RD as (K & _). pose proof K as (_ & _ & _ & N & T).
  assert (HW : forall d, (ftype f = PerspectiveFrustum -> 1 / 1000000 < d) -> 0 < half_w f d /\ 0 < half_h f d).
  { intros d D. unfold half_w, half_h. destruct (ftype f); [contradiction|lra|]. specialize (D eq_refl). pose proof (tan_half _ (proj1 T)). pose proof (tan_half _ (proj2 T)). split; apply Rmult_lt_0_compat; lra. }
  assert (AB : forall x w, 0 < w -> (-1 <= x / w <= 1 <-> - w <= x <= w)).
  { intros x w W. assert (E : x = x / w * w) by (field; lra). set (y := x / w) in *. clearbody y. subst x. split; intros; nra. }
  assert (PR : forall p, (ftype f = PerspectiveFrustum -> 1 / 1000000 < depth f p) -> Frustum_Project f p = Some (V3 (view_x f p / half_w f (depth f p)) (view_y f p / half_h f (depth f p)) (clip_depth f (depth f p)))).
  { intros p D. apply project_R; [exact RD|]. intros E. specialize (D E). rewrite Rabs_right; lra. }
  destruct (clip_depth_ends f K) as (CN & CF).
  assert (MO : forall d e, (ftype f = PerspectiveFrustum -> 1 / 1000000 < d) -> (ftype f = PerspectiveFrustum -> 1 / 1000000 < e) -> (clip_depth f d <= clip_depth f e <-> d <= e)).
  { intros d e D E. split.
    - intros H. destruct (Rle_or_lt d e) as [L|L]; [exact L|]. pose proof (clip_depth_mono f e d K ltac:(intros X; specialize (E X); lra) L). lra.
    - intros [L|L]; [|subst; lra]. left. apply clip_depth_mono; [exact K| |exact L]. intros X. specialize (D X). lra. }
  split; [|split; [|split]].
  - intros p D. eexists. split; [apply PR; exact D|]. cbn [vx vy vz]. destruct (HW _ D) as (W & H). split; [field; lra|]. split; [field; lra|]. rewrite !AB by assumption. rewrite <- CN at 1. rewrite <- CF at 1. rewrite !MO by (try exact D; intros; lra). unfold in_frustum. tauto.
  - intros p p' q q' D E E' L. rewrite (PR p D) in E. rewrite (PR p') in E' by (intros X; specialize (D X); lra). injection E as <-. injection E' as <-. cbn [vz]. apply clip_depth_mono; [exact K| |exact L]. intros X. specialize (D X). lra.
  - intros x y. unfold NearPlanePos, FarPlanePos. rewrite !planePos_R.
    destruct (view_of_point f (x * half_w f (fnear f)) (y * half_h f (fnear f)) (fnear f) K) as (A0 & A1 & A2). destruct (view_of_point f (x * half_w f (ffar f)) (y * half_h f (ffar f)) (ffar f) K) as (B0 & B1 & B2).
    rewrite !PR by (rewrite ?A2, ?B2; intros; lra). rewrite A0, A1, A2, B0, B1, B2, CN, CF. destruct (HW (fnear f)) as (W1 & H1); [intros; lra|]. destruct (HW (ffar f)) as (W2 & H2); [intros; lra|]. split; f_equal; f_equal; field; lra.
  - intros x y z Z. destruct (C84_points f K) as (C & _). destruct (C x y z) as (D & VX & VY). assert (DP : 1 / 1000000 < depth f (Frustum_PointInside f x y z)) by (rewrite D; nra). destruct (HW _ (fun _ => DP)) as (W & H). eexists. rewrite PR by (intros; exact DP). rewrite VX, VY. f_equal. f_equal; field; lra.
Qed.
Print Assumptions C85_project.
