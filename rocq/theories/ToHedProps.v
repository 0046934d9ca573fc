(** C111: boxes, oriented boxes, frustums, polygons and triangles converted to polyhedra. *)
From Coq Require Import Reals Lra Psatz ZArith Bool List Permutation Lia.
From Verif Require Import Num NumR ScalarProofs Vec3Model GeoTypes GeoSpec GeoLemmas SatTheory AabbModel AabbSpec MatModel MatSpec MatProofs MatProofs2 SphereSpec ObbModel ObbProps PlaneModel PlaneSpec PlaneProps FrustumModel FrustumSpec FrustumProps PolyTopoModel PolyTopoSpec PolyTopoProofs PolyTopoProps PolyTopoProps3 PolyhedronModel PolyhedronSpec PolyhedronProofs PolyhedronProps PolyhedronProps4 PolyhedronProps5 ToHedModel ToHedProofs.
Import ListNotations.
Open Scope R_scope.
Ltac Zify.zify_post_hook ::= idtac.

(** What every conversion of a solid promises: a closed convex polyhedron with outward faces, whose checks all pass and whose points are those of the solid [S]. *)
Definition solid_of (P : polyhedron R) (S : pt -> Prop) : Prop :=
  convex_solid (hv P) (hf P) /\ length (hv P) = 8%nat /\ length (hf P) = 6%nat /\
  FaceIndicesValid 8 (hf P) = true /\ IsClosed (hf P) = true /\ EulerFormulaHolds 8 (hf P) = true /\ Hed_IsConvex P = true /\
  (forall q, in_hull (hv P) q <-> S q) /\ (forall q, Hed_ContainsConvex P q 0 = true <-> S q).

(** A truncated pyramid in a right-handed frame. *)
Lemma world o vs fs (S : pt -> Prop) : framed o -> 0 < volume (oaxis0 o) (oaxis1 o) (oaxis2 o) -> convex_solid vs fs -> length vs = 8%nat -> length fs = 6%nat -> EulerFormulaHolds 8 fs = true ->
  (forall x y z, in_hull vs (V3 x y z) <-> S (at_ o x y z)) -> solid_of (Hed (map (mulpos34 (fm o)) vs) fs) S.
Proof.
  intros F D CS LV LF EU H. destruct (C101_transform (Hed vs fs) (fm o) CS ltac:(rewrite fm_det; exact D)) as (SQ & HU & _). unfold Hed_Transform34 in SQ, HU. cbn [hv hf] in SQ, HU.
  assert (HS : forall q, in_hull (map (mulpos34 (fm o)) vs) q <-> S q).
  { intros q. rewrite <- (at_crd o q F). specialize (HU (V3 (crd0 o q) (crd1 o q) (crd2 o q))). rewrite fm_at in HU. cbn [vx vy vz] in HU. rewrite <- HU. apply H. }
  assert (V : valid 8 fs) by (rewrite <- LV; exact (proj1 CS)).
  split; [exact SQ|]. cbn [hv hf]. split; [now rewrite map_length|]. split; [exact LF|]. split; [now apply C95_valid|]. split; [apply (C95_closed_valid 8 fs V); exact (proj1 (proj2 CS))|]. split; [exact EU|].
  split; [exact (proj1 (C101_convex (Hed (map (mulpos34 (fm o)) vs) fs) SQ))|]. split; [exact HS|]. intros q. rewrite (proj1 (C98_contains (Hed (map (mulpos34 (fm o)) vs) fs) q SQ)). apply HS.
Qed.
Lemma solid_ext P Q (S S' : pt -> Prop) : P = Q -> (forall q, S q <-> S' q) -> solid_of P S -> solid_of Q S'.
Proof.
  intros <- E (A & B & C & D & F & G & I & H & K). repeat (split; [assumption|]). split; intros q; rewrite <- E; [apply H|apply K].
Qed.
(** ** Oriented boxes *)
Lemma obb_hull o x y z : framed o -> 0 < vx (orad o) -> 0 < vy (orad o) -> 0 < vz (orad o) ->
  (in_hull (up (vx (orad o)) (vy (orad o)) 0 0 (- vz (orad o)) (2 * vz (orad o))) (V3 x y z) <-> in_obb o (at_ o x y z)).
Proof.
  intros F PX PY PZ. unfold up. rewrite trunc_hull by lra. split.
  - intros (t & T & Z & X & Y). cbn [vx vy vz] in *. exists x, y, z. repeat split; try lra; nra.
  - intros I. apply (in_obb_crd o _ F) in I. destruct (crd_at o x y z F) as (-> & -> & ->) in I. destruct I as (X & Y & Z). unfold within_r in *. exists ((z + vz (orad o)) / (2 * vz (orad o))). cbn [vx vy vz].
    split; [split; [apply Rmult_le_pos; [lra|left; apply Rinv_0_lt_compat; lra]|apply (Rmult_le_reg_r (2 * vz (orad o))); [lra|]; field_simplify; lra]|]. split; [field; lra|]. split; lra.
Qed.
Lemma obb_vertices o : OBB_ToPolyhedron o = Hed (map (mulpos34 (fm o)) (up (vx (orad o)) (vy (orad o)) 0 0 (- vz (orad o)) (2 * vz (orad o)))) boxTable.
Proof.
  unfold OBB_ToPolyhedron. f_equal. unfold up, trunc. cbn [map seq]. rewrite !fm_at. cbn [vx vy vz]. unfold OBB_CornerPoint, at_, smulv, vmuls.
  repeat f_equal; unfold plus, scale; vunf; apply vec_ext; cbn [vx vy vz]; ring.
Qed.
(** A right-handed oriented box becomes a closed convex polyhedron with outward faces that has exactly the points of the box. *)
Theorem C111_obb (o : obb R) : framed o -> 0 < volume (oaxis0 o) (oaxis1 o) (oaxis2 o) -> 0 < vx (orad o) -> 0 < vy (orad o) -> 0 < vz (orad o) -> solid_of (OBB_ToPolyhedron o) (in_obb o).
Proof.
  intros F D PX PY PZ. rewrite obb_vertices. apply world; try assumption; try reflexivity; [|intros; now apply obb_hull]. apply up_box_solid; lra.
Qed.
Print Assumptions C111_obb.
(** ** Axis-aligned boxes *)
Definition box_frame (b : aabb R) : obb R :=
  Obb (scale (1/2) (plus (minPoint b) (maxPoint b))) (scale (1/2) (minus (maxPoint b) (minPoint b))) (V3 1 0 0) (V3 0 1 0) (V3 0 0 1).
Lemma box_framed b : framed (box_frame b).
Proof. unfold framed, unitv, orth, box_frame. cbn [oaxis0 oaxis1 oaxis2]. gunf. cbn [vx vy vz]. repeat split; ring. Qed.
Lemma box_as_obb b : AABB_ToPolyhedron b = OBB_ToPolyhedron (box_frame b).
Proof.
  rewrite obb_vertices. unfold AABB_ToPolyhedron. f_equal. unfold up, trunc. cbn [map seq]. rewrite !fm_at. cbn [vx vy vz]. unfold AABB_CornerPoint, at_, box_frame. cbn [opos orad oaxis0 oaxis1 oaxis2].
  repeat f_equal; gunf; apply vec_ext; cbn [vx vy vz]; lra.
Qed.
(** A box with interior becomes a closed convex polyhedron with outward faces that has exactly the points of the box. *)
Theorem C111_aabb (b : aabb R) : vx (minPoint b) < vx (maxPoint b) -> vy (minPoint b) < vy (maxPoint b) -> vz (minPoint b) < vz (maxPoint b) ->
  solid_of (AABB_ToPolyhedron b) (in_box b) /\ Hed_ContainsConvex (AABB_ToPolyhedron b) (AABB_CenterPoint b) 0 = true.
Proof.
  intros X Y Z. assert (S : solid_of (AABB_ToPolyhedron b) (in_box b)).
  { apply (solid_ext (OBB_ToPolyhedron (box_frame b)) _ (in_obb (box_frame b))); [symmetry; apply box_as_obb| |].
    - intros q. rewrite (in_obb_crd _ q (box_framed b)). unfold within_r, crd0, crd1, crd2, in_box, box_frame. cbn [opos orad oaxis0 oaxis1 oaxis2]. gunf. cbn [vx vy vz]. split; intros (H1 & H2 & H3); repeat split; lra.
    - apply C111_obb; [apply box_framed| | | |]; unfold box_frame, volume; cbn [orad oaxis0 oaxis1 oaxis2]; gunf; cbn [vx vy vz]; lra. }
  split; [exact S|]. destruct S as (_ & _ & _ & _ & _ & _ & _ & _ & C). apply C. unfold AABB_CenterPoint, in_box. vunf. rsimpl. lra.
Qed.
Print Assumptions C111_aabb.

(** ** Left-handed boxes come out inside out *)
Lemma set3_side (a b c p : pt) : cross (minus b a) (minus c a) <> origin -> Plane_SignedDistance (Plane_Set3 a b c) p = dot (cross (minus b a) (minus c a)) (minus p a) / norm (cross (minus b a) (minus c a)).
Proof.
  intros NZ. assert (LP : norm (cross (minus b a) (minus c a)) <> 0) by (intros E; apply norm_zero in E; contradiction).
  unfold Plane_SignedDistance, Plane_Set3. toG. change (@Length R Num_R) with norm. change (@Cross R Num_R) with cross. cbn [pnormal pd]. set (N := cross _ _) in *. set (m := norm N) in *. clearbody N m. unfold vdivs. rsimpl. change (@Dot R Num_R) with dot. gunf. cbn [vx vy vz]. field. exact LP.
Qed.
(** The conversion of a box with left-handed axes (which the class allows) has its faces turned inwards: not even the centre of the box counts as inside. *)
Theorem C111_obb_left_refuted (o : obb R) : framed o -> volume (oaxis0 o) (oaxis1 o) (oaxis2 o) < 0 -> 0 < vx (orad o) -> 0 < vy (orad o) -> 0 < vz (orad o) ->
  in_obb o (opos o) /\ Hed_ContainsConvex (OBB_ToPolyhedron o) (opos o) 0 = false.
Proof.
  intros F D PX PY PZ. split; [exists 0, 0, 0; repeat split; try lra; gunf; apply vec_ext; cbn [vx vy vz]; ring|].
  rewrite obb_vertices. unfold Hed_ContainsConvex. cbn [hf hv boxTable forallb]. apply andb_false_iff. left. unfold Hed_FacePlane, Hed_FacePolygon. cbn [map]. unfold Hed_Vertex. cbn [hv].
  set (vs := up _ _ _ _ _ _). change (Z.to_nat 0) with 0%nat. change (Z.to_nat 1) with 1%nat. change (Z.to_nat 3) with 3%nat. unfold vs, up, trunc. cbn [map nth]. 
  set (a := mulpos34 _ _) at 1. set (b := mulpos34 (fm o) (V3 (- (vx (orad o) + 0)) (- (vy (orad o) + 0)) _)). set (c := mulpos34 (fm o) (V3 (- (vx (orad o) + 0)) (vy (orad o) + 0) _)).
  assert (E : dot (cross (minus b a) (minus c a)) (minus (opos o) a) = volume (oaxis0 o) (oaxis1 o) (oaxis2 o) * (- 4 * vx (orad o) * vy (orad o) * vz (orad o))).
  { unfold a, b, c. rewrite !fm_at. cbn [vx vy vz]. unfold at_, cross, volume. gunf. cbn [vx vy vz]. ring. }
  assert (P : 0 < vx (orad o) * vy (orad o) * vz (orad o)) by (repeat apply Rmult_lt_0_compat; assumption).
  assert (E0 : 0 < dot (cross (minus b a) (minus c a)) (minus (opos o) a)) by (rewrite E; nra). clearbody a b c.
  assert (NZ : cross (minus b a) (minus c a) <> origin) by (intros Q; rewrite Q, dot_comm, dot_origin_r in E0; lra).
  rewrite set3_side by exact NZ. assert (LP : 0 < norm (cross (minus b a) (minus c a))) by (destruct (norm_pos (cross (minus b a) (minus c a))) as [H|H]; [exact H|]; symmetry in H; apply norm_zero in H; contradiction).
  apply negb_false_iff. set (k := _ / _). assert (KP : 0 < k) by (unfold k; now apply Rdiv_lt_0_compat). change (Rltb 0 k = true). destruct (Rltb_spec 0 k); [reflexivity|lra].
Qed.
Print Assumptions C111_obb_left_refuted.
Example C111_obb_witness : let o := Obb (V3 1 2 3) (V3 1 2 1) (V3 1 0 0) (V3 0 1 0) (V3 0 0 1) in framed o /\ 0 < volume (oaxis0 o) (oaxis1 o) (oaxis2 o) /\
  let l := Obb (V3 1 2 3) (V3 1 2 1) (V3 1 0 0) (V3 0 1 0) (V3 0 0 (-1)) in framed l /\ volume (oaxis0 l) (oaxis1 l) (oaxis2 l) < 0.
Proof. unfold framed, unitv, orth, volume. cbn [oaxis0 oaxis1 oaxis2]. gunf. cbn [vx vy vz]. repeat split; lra. Qed.

(** ** Frustums *)
Definition mirror_eye (f : frustum R) : obb R := Obb (fpos f) origin (fright f) (fup f) (scale (-1) (ffront f)).
Lemma mirror_at f x y z : at_ (mirror_eye f) x y z = view_point f x y (- z).
Proof. unfold at_, mirror_eye, view_point. cbn [opos oaxis0 oaxis1 oaxis2]. gunf. apply vec_ext; cbn [vx vy vz]; ring. Qed.
Lemma mirror_framed f : frustum_ok f -> framed (mirror_eye f).
Proof.
  intros K. destruct (ok_framed f K) as (A & B & C & D & E & G). unfold framed, mirror_eye, unitv, orth in *. unfold eye in *. cbn [oaxis0 oaxis1 oaxis2] in *. rewrite !dot_scale_r, ?dot_scale_l. repeat split; lra.
Qed.
Lemma eye_volume f : frustum_ok f -> volume (fright f) (fup f) (ffront f) = match fhand f with FrustumRightHanded => -1 | _ => 1 end.
Proof.
  intros (U1 & U2 & O & _). assert (X : forall s : R, s * (dot (ffront f) (ffront f) * dot (fup f) (fup f) - dot (ffront f) (fup f) * dot (ffront f) (fup f)) = s) by (intros; unfold unitv, orth in *; rewrite U1, U2, O; ring).
  unfold fright. destruct (fhand f); [rewrite <- (X 1)|rewrite <- (X 1)|rewrite <- (X (-1))]; unfold volume, xprod; gunf; cbn [vx vy vz]; ring.
Qed.
Section View.
  Context (f : frustum R) (K : frustum_ok f).
  Let n := fnear f. Let z := ffar f. Let a := half_w f n. Let b := half_h f n. Let e := half_w f z - half_w f n. Let g := half_h f z - half_h f n.
  Definition right_vs : list pt := down (half_w f (fnear f)) (half_h f (fnear f)) (half_w f (ffar f) - half_w f (fnear f)) (half_h f (ffar f) - half_h f (fnear f)) (- fnear f) (ffar f - fnear f).
  Definition left_vs : list pt := up (half_w f (fnear f)) (half_h f (fnear f)) (half_w f (ffar f) - half_w f (fnear f)) (half_h f (ffar f) - half_h f (fnear f)) (fnear f) (ffar f - fnear f).
  Lemma depths : 0 < n < z. Proof. exact (proj1 (proj2 (proj2 (proj2 K)))). Qed.
  Lemma sizes : 0 < a /\ 0 < b /\ 0 < a + e /\ 0 < b + g /\ 0 <= e /\ 0 <= g.
  Proof.
    pose proof depths as DP. destruct (half_pos f n K ltac:(lra)) as (A & B). destruct (half_pos f z K ltac:(lra)) as (A' & B'). destruct (half_affine f K) as (p & q & P & Q & _ & H). destruct (half_affine_h f K) as (p' & q' & P' & Q' & _ & H').
    unfold a, b, e, g in *. repeat split; try lra; rewrite ?H, ?H'; nra.
  Qed.
  Lemma right_vertices : fhand f = FrustumRightHanded -> Frustum_ToPolyhedron f = Hed (map (mulpos34 (fm (mirror_eye f))) right_vs) frustumTable.
  Proof.
    intros HD. unfold Frustum_ToPolyhedron. rewrite HD. f_equal. unfold right_vs, down, trunc. cbn [map seq]. rewrite !fm_at. cbn [vx vy vz]. rewrite !mirror_at. unfold Frustum_CornerPoint, NearPlanePos, FarPlanePos. rewrite !planePos_R. rsimpl.
    repeat (apply (f_equal2 (@cons pt)); [apply (f_equal3 (view_point f)); ring|]); reflexivity.
  Qed.
  Lemma left_vertices : fhand f = FrustumLeftHanded -> Frustum_ToPolyhedron f = Hed (map (mulpos34 (fm (eye f))) left_vs) backTable.
  Proof.
    intros HD. unfold Frustum_ToPolyhedron. rewrite HD. f_equal. unfold left_vs, up, trunc. cbn [map seq]. rewrite !fm_at. cbn [vx vy vz]. rewrite <- !view_at. unfold Frustum_CornerPoint, NearPlanePos, FarPlanePos. rewrite !planePos_R. rsimpl.
    repeat (apply (f_equal2 (@cons pt)); [apply (f_equal3 (view_point f)); ring|]); reflexivity.
  Qed.
  Lemma level t : half_w f n + t * (half_w f z - half_w f n) = half_w f (n + t * (z - n)) /\ half_h f n + t * (half_h f z - half_h f n) = half_h f (n + t * (z - n)).
  Proof. destruct (half_affine f K) as (p & q & _ & _ & _ & H). destruct (half_affine_h f K) as (p' & q' & _ & _ & _ & H'). rewrite !H, !H'. split; ring. Qed.
  Lemma frac w : n <= w <= z -> exists t, 0 <= t <= 1 /\ w = n + t * (z - n).
  Proof.
    pose proof depths. intros W. exists ((w - n) / (z - n)). split; [|field; lra]. split; [apply Rmult_le_pos; [lra|left; apply Rinv_0_lt_compat; lra]|apply (Rmult_le_reg_r (z - n)); [lra|]; field_simplify; lra].
  Qed.
  Lemma left_hull x y w : in_hull left_vs (V3 x y w) <-> in_frustum f (view_point f x y w).
  Proof.
    pose proof depths as DP. destruct sizes as (A & B & A' & B' & _). unfold left_vs, up. rewrite trunc_hull by assumption. rewrite (in_frustum_point f x y w K). fold n z. unfold in_trunc. cbn [vx vy vz]. split.
    - intros (t & T & Z & X & Y). assert (Z' : w = n + t * (z - n)) by lra. destruct (level t) as (L1 & L2). rewrite <- Z' in L1, L2. unfold a, b, e, g in *. repeat split; try lra; nra.
    - intros (Z & X & Y). destruct (frac w Z) as (t & T & E). destruct (level t) as (L1 & L2). rewrite <- E in L1, L2. exists t. split; [exact T|]. unfold a, b, e, g in *. repeat split; lra.
  Qed.
  Lemma right_hull x y w : in_hull right_vs (V3 x y w) <-> in_frustum f (view_point f x y (- w)).
  Proof.
    pose proof depths as DP. destruct sizes as (A & B & A' & B' & _). unfold right_vs, down. rewrite trunc_hull by assumption. rewrite (in_frustum_point f x y (- w) K). fold n z. unfold in_trunc. cbn [vx vy vz]. split.
    - intros (t & T & Z & X & Y). assert (Z' : - w = n + t * (z - n)) by lra. destruct (level t) as (L1 & L2). rewrite <- Z' in L1, L2. unfold a, b, e, g in *. repeat split; try lra; nra.
    - intros (Z & X & Y). destruct (frac (- w) Z) as (t & T & E). destruct (level t) as (L1 & L2). rewrite <- E in L1, L2. exists t. split; [exact T|]. unfold a, b, e, g in *. repeat split; lra.
  Qed.
End View.
(** A frustum of either handedness becomes a closed convex polyhedron with outward faces that has exactly the points of the frustum. *)
Theorem C111_frustum (f : frustum R) : frustum_ok f -> fhand f <> FrustumHandednessInvalid -> solid_of (Frustum_ToPolyhedron f) (in_frustum f).
Proof.
  intros K HD. pose proof (depths f K) as DP. destruct (sizes f K) as (A & B & A' & B' & _). destruct (fhand f) eqn:H; [contradiction| |].
  - rewrite (left_vertices f H). apply world; try reflexivity; [now apply ok_framed| | |intros; now apply left_hull].
    + change (0 < volume (fright f) (fup f) (ffront f)). rewrite (eye_volume f K), H. lra.
    + apply up_back_solid; try assumption. lra.
  - rewrite (right_vertices f H). apply world; try reflexivity; [now apply mirror_framed| | |intros; rewrite mirror_at; now apply right_hull].
    + change (0 < volume (fright f) (fup f) (scale (-1) (ffront f))). replace (volume _ _ _) with (- volume (fright f) (fup f) (ffront f)) by (unfold volume; gunf; cbn [vx vy vz]; ring). rewrite (eye_volume f K), H. lra.
    + apply down_solid; try assumption. lra.
Qed.
Print Assumptions C111_frustum.
