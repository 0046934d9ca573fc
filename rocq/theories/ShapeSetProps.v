(** C112: containing, enclosing and measuring polygons, frustums and polyhedra. *)
From Coq Require Import Reals Lra Psatz ZArith Bool List Permutation Lia.
From Verif Require Import Num NumR ScalarModel ScalarProofs Vec3Model GeoTypes GeoSpec GeoLemmas Vec3Props SatTheory AabbModel AabbSpec AabbProofs AabbProps MatModel MatSpec MatProofs MatProofs2 LineModel LineSpec LineProps SphereModel SphereSpec SphereProps SphereProps2 SphereProps3 CapsuleModel CapsuleProps CapsuleProps2 ObbModel ObbProps PlaneModel PlaneSpec PlaneProps PlaneProps2 PlaneProps3 TriangleModel SatModel SatProps FrustumModel FrustumSpec FrustumProps FrustumProps2 FrustumProps3 FrustumProps6 FrustumProps7 Vec2Model Vec2Spec HullSpec PolyTopoModel PolygonModel PolygonSpec PolygonProps PolygonProps3 PolyhedronModel PolyhedronSpec PolyhedronProofs PolyhedronProps PolyhedronProps3 PolyhedronProps6 ShapeSetModel.
Import ListNotations.
Open Scope R_scope.
Ltac Zify.zify_post_hook ::= idtac.

(** ** Boxes *)
Definition bounds (m : aabb R) (A : pt -> Prop) : Prop := (forall p, A p -> in_box m p) /\ forall c, (forall p, A p -> in_box c p) -> forall p, in_box m p -> in_box c p.
Lemma bounds_ok m (A : pt -> Prop) p : A p -> bounds m A -> box_ok m.
Proof. intros P [B _]. specialize (B p P). unfold in_box, box_ok in *. lra. Qed.
Lemma bounds_contains m (A : pt -> Prop) p b : A p -> bounds m A -> (AABB_ContainsAABB b m = true <-> forall q, A q -> in_box b q).
Proof.
  intros P B. pose proof (bounds_ok m A p P B) as K. transitivity (forall q, in_box m q -> in_box b q).
  - rewrite <- (AabbProps.within_points m b K), within_R. unfold AABB_ContainsAABB, AABB_ContainsMinMax. rewrite !andb_true_iff. change (@nleb R Num_R) with Rleb. rewrite !Rleb_true. unfold box_ok in K. lra.
  - destruct B as [B1 B2]. split; [intros H q Q; apply H, B1, Q|intros H; now apply B2].
Qed.
Definition encloses (r b : aabb R) (A : pt -> Prop) : Prop :=
  (forall p, in_box b p \/ A p -> in_box r p) /\ forall c, (forall p, in_box b p \/ A p -> in_box c p) -> forall p, in_box r p -> in_box c p.
Lemma bounds_encloses m (A : pt -> Prop) p b : A p -> box_ok b -> bounds m A -> encloses (AABB_EncloseAABB b m) b A.
Proof.
  intros P K B. pose proof (bounds_ok m A p P B) as M. unfold AABB_EncloseAABB.
  assert (W : forall c, AabbSpec.within (AABB_EncloseMinMax b (minPoint m) (maxPoint m)) c <-> (forall q, in_box b q -> in_box c q) /\ forall q, A q -> in_box c q).
  { intros c. rewrite encloseMM_within by auto. assert (E : Box (minPoint m) (maxPoint m) = m) by now destruct m. rewrite E, (AabbProps.within_points b c K), (AabbProps.within_points m c M). destruct B as [B1 B2]. split; intros [H1 H2]; (split; [exact H1|]); [intros q Q; apply H2, B1, Q|now apply B2]. }
  destruct (proj1 (W _) (within_refl _ (okb_R _))) as [W1 W2]. split.
  - intros q [Q|Q]; [now apply W1|now apply W2].
  - intros c H q Q. apply inside_R. eapply within_inside; [|apply inside_R; exact Q]. apply W. split; intros; apply H; tauto.
Qed.
Lemma hull_head (vs : list pt) : vs <> [] -> exists v, in_hull vs v.
Proof. intros N. destruct vs as [|v vs]; [contradiction|]. exists v. apply hull_in. now left. Qed.
Lemma bounds_hull (vs : list pt) : vs <> [] -> exists m, Poly_MinimalEnclosingAABB vs = Some m /\ bounds m (in_hull vs).
Proof.
  intros N. destruct vs as [|p rest]; [contradiction|]. destruct (C92_extremes p rest origin) as (e & x & lo & hi & m & _ & _ & _ & _ & _ & _ & _ & _ & E & B1 & B2). exists m. split; [exact E|]. split; [exact B1|].
  intros c H. apply B2. intros q Q. apply H. now apply hull_in.
Qed.
Lemma corner_hull (f : frustum R) : frustum_ok f -> forall p, in_frustum f p <-> in_hull (frustumCorners f) p.
Proof. intros K. exact (proj1 (proj2 (C84_corners f K))). Qed.
Theorem C112_box_contains (b : aabb R) (ps : list pt) (f : frustum R) (H : polyhedron R) : ps <> [] -> frustum_ok f -> hv H <> [] ->
  (exists r, AABB_ContainsPolygon b ps = Some r /\ (r = true <-> forall p, in_hull ps p -> in_box b p)) /\
  (AABB_ContainsFrustum b f = true <-> forall p, in_frustum f p -> in_box b p) /\
  (exists r, AABB_ContainsPolyhedron b H = Some r /\ (r = true <-> forall p, in_hull (hv H) p -> in_box b p)).
Proof.
  intros N K NH. assert (G : forall vs, vs <> [] -> exists r, AABB_ContainsPolygon b vs = Some r /\ (r = true <-> forall p, in_hull vs p -> in_box b p)).
  { intros vs NV. destruct (bounds_hull vs NV) as (m & E & B). destruct (hull_head vs NV) as (v & V). unfold AABB_ContainsPolygon. rewrite E. eexists. split; [reflexivity|]. exact (bounds_contains m _ v b V B). }
  split; [now apply G|]. split; [|exact (G (hv H) NH)]. destruct (C84_corners f K) as (_ & _ & _ & _ & _ & C). exact (bounds_contains _ (in_frustum f) _ b C (C84_aabb f K)).
Qed.
Print Assumptions C112_box_contains.
(** Enclose gives the smallest box around the old box and the shape. *)
Theorem C112_box_encloses (b : aabb R) (ps : list pt) (f : frustum R) (H : polyhedron R) : box_ok b -> frustum_ok f ->
  (ps <> [] -> encloses (AABB_EnclosePolygon b ps) b (in_hull ps)) /\ encloses (AABB_EncloseFrustum b f) b (in_frustum f) /\
  (hv H <> [] -> encloses (AABB_EnclosePolyhedron b H) b (in_hull (hv H))) /\ AABB_EnclosePolygon b [] = b.
Proof.
  intros KB K. assert (G : forall vs, vs <> [] -> encloses (AABB_EnclosePolygon b vs) b (in_hull vs)).
  { intros vs NV. destruct (bounds_hull vs NV) as (m & E & B). destruct (hull_head vs NV) as (v & V). unfold AABB_EnclosePolygon. rewrite E. exact (bounds_encloses m _ v b V KB B). }
  split; [apply G|]. split; [|split; [exact (G (hv H))|reflexivity]]. destruct (C84_corners f K) as (_ & _ & _ & _ & _ & C). exact (bounds_encloses _ (in_frustum f) _ b C KB (C84_aabb f K)).
Qed.
Print Assumptions C112_box_encloses.

(** ** Containing a frustum, and growing a sphere around one *)
Theorem C112_contains_frustum (f : frustum R) (s : sphere R) (c : capsule R) (o : obb R) : frustum_ok f -> 0 <= srad s -> framed o ->
  (Sphere_ContainsFrustum s f = true <-> forall p, in_frustum f p -> in_sphere s p) /\
  (Capsule_ContainsFrustum c f = true <-> forall p, in_frustum f p -> in_capsule c p) /\
  (OBB_ContainsFrustum o f = true <-> forall p, in_frustum f p -> in_obb o p).
Proof.
  intros K S O. pose proof (corner_hull f K) as CH. set (b0 := Box origin origin : aabb R). assert (B0 : box_ok b0) by (unfold box_ok, b0; cbn; lra).
  set (l0 := Seg origin origin : segment R). set (t0 := Tri origin origin origin : triangle R).
  split; [|split].
  - pose proof (proj2 (proj2 (proj2 (C44_contains_shapes s l0 t0 b0 (frustumCorners f) S B0)))) as E. unfold Sphere_ContainsFrustum. unfold Sphere_ContainsPolygon in E. rewrite E. split; intros H p P; apply H, CH, P.
  - pose proof (proj2 (proj2 (proj2 (C50_contains_shapes c l0 t0 b0 (frustumCorners f) B0)))) as E. unfold Capsule_ContainsFrustum. unfold Capsule_ContainsVertices in E. rewrite E. split; intros H p P; apply H, CH, P.
  - assert (Q : forall vs, forallb (OBB_Contains o) vs = true <-> forall p, in_hull vs p -> in_obb o p).
    { intros vs. set (q0 := Obb origin (V3 1 1 1) (V3 1 0 0) (V3 0 1 0) (V3 0 0 1) : obb R). assert (Q0 : obb_ok q0) by (unfold obb_ok, q0; cbn; lra).
      exact (proj2 (proj2 (proj2 (proj2 (C51_contains_shapes o q0 l0 t0 b0 vs O Q0 B0))))). }
    unfold OBB_ContainsFrustum. rewrite Q. split; intros H p P; apply H, CH, P.
Qed.
Print Assumptions C112_contains_frustum.
(** Frustum in frustum: never missed, and accepted only within the tolerance of Frustum::Contains. *)
Theorem C112_frustum_in_frustum (g f : frustum R) : ready g -> frustum_ok f -> 1 / 1000000 < fnear g ->
  ((forall p, in_frustum f p -> in_frustum g p) -> Frustum_ContainsFrustum g f = true) /\
  ((ftype g = PerspectiveFrustum -> forall p, in_frustum f p -> 1 / 1000000 < depth g p) -> Frustum_ContainsFrustum g f = true -> forall p, in_frustum f p -> loose g p).
Proof.
  intros RD K NE. pose proof (corner_hull f K) as CH. destruct (C85_contains g RD NE) as (_ & _ & _ & A & B & _). change (Frustum_ContainsFrustum g f) with (Frustum_ContainsVertices g (frustumCorners f)). split.
  - intros H. apply A. intros p P. apply H, CH. now apply hull_in.
  - intros D E p P. apply (B (frustumCorners f)); [|exact E|now apply CH]. intros TY q Q. apply (D TY), CH. now apply hull_in.
Qed.
Print Assumptions C112_frustum_in_frustum.
Theorem C112_sphere_encloses (s : sphere R) (ps : list pt) (f : frustum R) (H : polyhedron R) : 1 <= srad s -> frustum_ok f ->
  let grown (s' : sphere R) (A : pt -> Prop) := srad s <= srad s' /\ forall x, in_sphere s x \/ A x -> in_sphere s' x in
  grown (Sphere_EnclosePolygon s ps) (in_hull ps) /\ grown (Sphere_EnclosePolyhedron s H) (in_hull (hv H)) /\ grown (Sphere_EncloseFrustum s f) (in_frustum f).
Proof.
  intros S K grown. set (b0 := Box origin origin : aabb R). set (l0 := Seg origin origin : segment R). set (t0 := Tri origin origin origin : triangle R).
  assert (G : forall vs, grown (Sphere_EnclosePts s vs) (in_hull vs)) by (intros vs; exact (proj1 (C45_enclose_shapes s vs l0 t0 b0 S))).
  split; [apply G|]. split; [apply G|]. destruct (G (frustumCorners f)) as [A B]. split; [exact A|]. intros x [X|X]; apply B; [now left|right; now apply corner_hull].
Qed.
Print Assumptions C112_sphere_encloses.

(** ** Planes *)
Lemma convex_sphere_set s : 0 <= srad s -> convex_set (in_sphere s).
Proof. intros S. exact (convex_sphere s). Qed.
Theorem C112_signed_distance (P : plane R) (c : capsule R) (f : frustum R) (ps : list pt) (H : polyhedron R) (s : sphere R) (t : triangle R) :
  unitv (pnormal P) -> 0 <= cap_r c -> frustum_ok f -> ps <> [] -> hv H <> [] -> 0 <= srad s ->
  signed_distance_is P (in_capsule c) (Plane_SignedDistanceCapsule P c) /\ signed_distance_is P (in_frustum f) (Plane_SignedDistanceFrustum P f) /\
  (exists d, Plane_SignedDistancePolygon P ps = Some d /\ signed_distance_is P (in_hull ps) d) /\ signed_distance_is P (in_hull (hv H)) (Plane_SignedDistancePolyhedron P H) /\
  signed_distance_is P (in_sphere s) (Plane_SignedDistanceSphere P s) /\ signed_distance_is P (in_triangle t) (Plane_SignedDistanceTri P t).
Proof.
  intros U KC KF NP NH KS. split; [|split; [|split; [|split; [|split]]]].
  - unfold Plane_SignedDistanceCapsule. pose proof (C50_project c (pnormal P) KC U) as E. destruct (Capsule_ProjectToAxis c (pnormal P)) as [lo hi]. destruct E as (A & B & C). apply range_signed; [exact U|]. apply range_convex; [exact (convex_capsule c)|exact C|exact A|exact B].
  - unfold Plane_SignedDistanceFrustum. pose proof (C84_extreme f (pnormal P) KF) as E. destruct (Frustum_ExtremePoint f (pnormal P)) as [e d]. destruct E as (_ & IE & ED & _ & E). destruct (Frustum_ProjectToAxis f (pnormal P)) as [lo hi]. destruct E as (EH & E).
    apply range_signed; [exact U|]. split; [|exact E]. destruct (proj2 (E d)) as [L M]; [exists e; split; [exact IE|now rewrite ED]|]. lra.
  - destruct ps as [|p rest]; [contradiction|]. destruct (C92_extremes p rest (pnormal P)) as (e & m & lo & hi & b & _ & IE & EM & _ & E & EH & (q & Q & EQ) & C & _). unfold Plane_SignedDistancePolygon. rewrite E. eexists. split; [reflexivity|].
    apply range_signed; [exact U|]. apply range_convex; [apply hull_convex|exact C|exists q; split; [now apply hull_in|exact EQ]|exists e; split; [now apply hull_in|congruence]].
  - unfold Plane_SignedDistancePolyhedron. destruct (C100_extremes H (pnormal P) NH) as (_ & _ & _ & _ & E). destruct (Hed_ProjectToAxis H (pnormal P)) as [lo hi]. destruct E as ((a & b & IA & IB & EA & EB) & C).
    apply range_signed; [exact U|]. apply range_convex; [apply hull_convex|exact C|exists a; split; [now apply hull_in|exact EA]|exists b; split; [now apply hull_in|exact EB]].
  - unfold Plane_SignedDistanceSphere. pose proof (C44_project s (pnormal P) KS U) as E. destruct (Sphere_ProjectToAxis s (pnormal P)) as [lo hi]. apply range_signed; [exact U|]. split; [|exact E].
    destruct (proj2 (E (dot (pnormal P) (spos s)))) as [L M]; [|lra]. exists (spos s). split; [|reflexivity]. unfold in_sphere. replace (dist (spos s) (spos s)) with 0 by (symmetry; now apply dist_zero). exact KS.
  - unfold Plane_SignedDistanceTri. rewrite tri_project_R. set (n := pnormal P) in *. apply range_signed; [exact U|].
    assert (V : forall v, In v [tri_a t; tri_b t; tri_c t] -> in_triangle t v) by (intros v I; destruct t as [a b c']; apply hull_triangle; now apply hull_in).
    apply range_convex.
    + apply convex_tri.
    + intros p I. destruct t as [a b c']. apply hull_triangle in I. cbn [tri_a tri_b tri_c]. apply (I (fun p => _ <= dot n p <= _)).
      * intros x y k X Y K. rewrite dot_plus_r, dot_scale_r, dot_minus_r. nra.
      * intros v I'. pose proof (Rmin_l (dot n c') (Rmin (dot n b) (dot n a))). pose proof (Rmin_r (dot n c') (Rmin (dot n b) (dot n a))). pose proof (Rmin_l (dot n b) (dot n a)). pose proof (Rmin_r (dot n b) (dot n a)).
        pose proof (Rmax_l (dot n c') (Rmax (dot n b) (dot n a))). pose proof (Rmax_r (dot n c') (Rmax (dot n b) (dot n a))). pose proof (Rmax_l (dot n b) (dot n a)). pose proof (Rmax_r (dot n b) (dot n a)).
        destruct I' as [<-|[<-|[<-|[]]]]; lra.
    + unfold Rmin. repeat destruct Rle_dec; eexists; (split; [apply V|reflexivity]); cbn; tauto.
    + unfold Rmax. repeat destruct Rle_dec; eexists; (split; [apply V|reflexivity]); cbn; tauto.
Qed.
Print Assumptions C112_signed_distance.
(** A plane is reported to cut the solid exactly when some of its points are strictly below and some are not. *)
Lemma hull_cut (P : plane R) (vs : list pt) : Plane_IntersectsVertices P vs = true <-> (exists p, in_hull vs p /\ dot (pnormal P) p < pd P) /\ exists p, in_hull vs p /\ pd P <= dot (pnormal P) p.
Proof.
  rewrite C41_vertices. unfold height. split.
  - intros ((v & V & L) & w & W & G). split; [exists v|exists w]; (split; [now apply hull_in|lra]).
  - intros ((p & IP & L) & q & IQ & G). split.
    + destruct (Classical_Prop.classic (exists v, In v vs /\ dot (pnormal P) v - pd P < 0)) as [E|E]; [exact E|]. exfalso. assert (pd P <= dot (pnormal P) p); [|lra]. apply (IP (fun p => pd P <= dot (pnormal P) p)).
      * intros x y k X Y K. rewrite dot_plus_r, dot_scale_r, dot_minus_r. nra.
      * intros v V. destruct (Rle_or_lt (pd P) (dot (pnormal P) v)); [assumption|]. exfalso. apply E. exists v. split; [exact V|lra].
    + destruct (Classical_Prop.classic (exists v, In v vs /\ 0 <= dot (pnormal P) v - pd P)) as [E|E]; [exact E|]. exfalso. assert (dot (pnormal P) q < pd P); [|lra]. apply (IQ (fun p => dot (pnormal P) p < pd P)).
      * intros x y k X Y K. rewrite dot_plus_r, dot_scale_r, dot_minus_r. destruct (Req_dec k 1) as [->|NK]; [lra|]. assert (0 < 1 - k) by lra. nra.
      * intros v V. destruct (Rle_or_lt (pd P) (dot (pnormal P) v)); [|assumption]. exfalso. apply E. exists v. split; [exact V|lra].
Qed.
Theorem C112_cut (P : plane R) (f : frustum R) (H : polyhedron R) : frustum_ok f ->
  let cut (A : pt -> Prop) := (exists p, A p /\ dot (pnormal P) p < pd P) /\ exists p, A p /\ pd P <= dot (pnormal P) p in
  (Plane_IntersectsFrustum P f = true <-> cut (in_frustum f)) /\ (Plane_IntersectsPolyhedron P H = true <-> cut (in_hull (hv H))).
Proof.
  intros K cut. split; [|apply hull_cut].
  assert (E : Plane_IntersectsFrustum P f = Plane_IntersectsVertices P (frustumCorners f)) by reflexivity. rewrite E, hull_cut. pose proof (corner_hull f K) as CH. unfold cut.
  split; intros ((p & IP & A) & q & IQ & B); (split; [exists p|exists q]); (split; [now apply CH|assumption]).
Qed.
Print Assumptions C112_cut.
(** A plane that holds a spanning polygon is recognised at every positive tolerance. *)
Theorem C112_plane_holds_polygon (P : plane R) (o U V : pt) (qs : list p2) e : unitv (pnormal P) -> 0 < e -> frame U V -> spans qs -> (forall q, on_plane P (embed o U V q)) ->
  Plane_ContainsPolygon P (map (embed o U V) qs) e = true.
Proof.
  intros UP E F S ON. destruct (C90_plane o U V qs F S) as (Q & s & SG & PL & _ & NQ & UQ & OQ & _).
  assert (L : (3 <= length qs)%nat) by (destruct S as (a & b & c & (l1 & l2 & l3 & l4 & ->) & _); rewrite !app_length; cbn [length]; rewrite !app_length; cbn [length]; rewrite !app_length; cbn [length]; lia).
  assert (R1 : Plane_ContainsPolygon P (map (embed o U V) qs) e = Plane_SetEquals P Q e).
  { unfold Plane_ContainsPolygon. rewrite PL. destruct qs as [|a [|b [|c qs]]]; cbn in L; try lia. reflexivity. }
  rewrite R1. apply (C41_set_equals P Q UP UQ); [|exact E].
  destruct F as (F1 & F2 & F3). assert (C1 : dot (cross U V) U = 0) by (unfold dot, cross; cbn; ring). assert (C2 : dot (cross U V) V = 0) by (unfold dot, cross; cbn; ring).
  assert (UC : unitv (cross U V)) by (unfold unitv; replace (dot (cross U V) (cross U V)) with (dot U U * dot V V - dot U V * dot U V) by (unfold dot, cross; cbn; ring); rewrite F1, F2, F3; ring).
  assert (OR : forall W : plane R, (forall q, on_plane W (embed o U V q)) -> dot (pnormal W) U = 0 /\ dot (pnormal W) V = 0 /\ dot (pnormal W) o = pd W).
  { intros W OW. pose proof (OW (V2 0 0)) as A. pose proof (OW (V2 1 0)) as B. pose proof (OW (V2 0 1)) as C. unfold on_plane, embed in A, B, C. cbn [x2 y2] in *. rewrite !dot_plus_r, !dot_scale_r in *. lra. }
  (* both planes are the plane of the frame *)
  assert (G : forall W : plane R, unitv (pnormal W) -> (forall q, on_plane W (embed o U V q)) -> forall p, on_plane W p <-> dot (cross U V) (minus p o) = 0).
  { intros W UW OW p. destruct (OR W OW) as (A1 & A2 & A3). pose proof (expand U V (cross U V) (pnormal W) F1 F2 UC F3) as X. unfold orth in X. rewrite (dot_comm U (cross U V)), (dot_comm V (cross U V)) in X. specialize (X C1 C2).
    set (k := dot (pnormal W) (cross U V)) in *. assert (N : pnormal W = scale k (cross U V)).
    { rewrite X. rewrite ?(dot_comm U (pnormal W)), ?(dot_comm V (pnormal W)), A1, A2. fold k. unfold plus, scale. apply vec_ext; cbn [vx vy vz]; ring. }
    assert (NZ : k <> 0) by (intros Z; rewrite N, Z in UW; unfold unitv in UW; rewrite dot_scale_l in UW; lra).
    unfold on_plane. rewrite <- A3, dot_minus_r, N, !dot_scale_l. split; intros Z.
    - apply (Rmult_eq_reg_l k); [|exact NZ]. lra.
    - replace (dot (cross U V) p) with (dot (cross U V) o) by lra. reflexivity. }
  intros p. rewrite (G P UP ON p), (G Q UQ OQ p). reflexivity.
Qed.
Print Assumptions C112_plane_holds_polygon.
(** A square, a tetrahedron and a camera meet the hypotheses. *)
Example C112_witness :
  let f := right_angle 1 10 FrustumSpaceGL FrustumRightHanded in let sq := [V3 0 0 0; V3 2 0 0; V3 2 2 0; V3 0 2 0] : list pt in
  ready f /\ frustum_ok f /\ 1 / 1000000 < fnear f /\ hv tetra <> [] /\ framed (Obb origin (V3 1 2 3) (V3 1 0 0) (V3 0 1 0) (V3 0 0 1)) /\
  AABB_ContainsPolygon (Box (V3 0 0 0) (V3 2 2 2)) sq = Some true /\ AABB_ContainsPolygon (Box (V3 0 0 0) (V3 2 1 2)) sq = Some false /\
  Plane_SignedDistancePolygon (Pln (V3 0 0 1) 3) sq <> Some 3 /\ exists d, Plane_SignedDistancePolygon (Pln (V3 0 0 1) 3) sq = Some d /\ d < 0.
Proof.
  set (f := right_angle 1 10 FrustumSpaceGL FrustumRightHanded). assert (RD : ready f) by (apply lens_ready; [lra|discriminate|discriminate]). set (sq := [V3 0 0 0; V3 2 0 0; V3 2 2 0; V3 0 2 0] : list pt). cbv zeta.
  split; [exact RD|]. split; [exact (proj1 RD)|]. split; [cbn; lra|]. split; [discriminate|]. split; [unfold framed, unitv, orth, dot; cbn; lra|].
  assert (NS : sq <> []) by discriminate. assert (NT : hv tetra <> []) by discriminate.
  split; [|split].
  - destruct (C112_box_contains (Box (V3 0 0 0) (V3 2 2 2)) sq f tetra NS (proj1 RD) NT) as ((r & -> & E) & _). f_equal. apply E. intros p P. apply P; [apply convex_box|]. intros v [<-|[<-|[<-|[<-|[]]]]]; unfold in_box; cbn; lra.
  - destruct (C112_box_contains (Box (V3 0 0 0) (V3 2 1 2)) sq f tetra NS (proj1 RD) NT) as ((r & -> & E) & _). f_equal. destruct r; [|reflexivity]. exfalso. pose proof (proj1 E eq_refl (V3 2 2 0) (hull_in sq (V3 2 2 0) (or_intror (or_intror (or_introl eq_refl))))) as Q. unfold in_box in Q. cbn in Q. lra.
  - assert (UP : unitv (pnormal (Pln (V3 0 0 1) 3))) by (unfold unitv, dot; cbn; ring). assert (K0 : 0 <= cap_r (Cap (Seg origin origin) 0 : capsule R)) by (cbn; lra). assert (S0 : 0 <= srad (Sph origin 0 : sphere R)) by (cbn; lra).
    destruct (C112_signed_distance (Pln (V3 0 0 1) 3) (Cap (Seg origin origin) 0) f sq tetra (Sph origin 0) (Tri origin origin origin) UP K0 (proj1 RD) NS NT S0) as (_ & _ & (d & -> & (B & C) & _ & D) & _).
    assert (DN : d < 0). { apply D. intros p P. cbn [pnormal pd]. apply (P (fun p => dot (V3 0 0 1) p < 3)); [intros x y k X Y K; rewrite dot_plus_r, dot_scale_r, dot_minus_r; destruct (Req_dec k 1) as [->|NK]; [lra|]; assert (0 < 1 - k) by lra; nra|].
      intros v [<-|[<-|[<-|[<-|[]]]]]; unfold dot; cbn; lra. }
    split; [intros Z; injection Z as Z; lra|]. exists d. now split.
Qed.
Example C112_plane_witness : Plane_ContainsPolygon (Pln (V3 0 0 1) 5) (map (embed (V3 0 0 5) (V3 1 0 0) (V3 0 1 0)) [V2 0 0; V2 2 0; V2 2 2; V2 0 2]) (1 / 1000) = true.
Proof.
  apply C112_plane_holds_polygon; [unfold unitv, dot; cbn; ring|lra|unfold frame, dot; cbn; lra| |intros q; unfold on_plane, embed, dot, plus, scale; cbn; ring].
  exists (V2 0 0), (V2 2 0), (V2 2 2). split; [exists [], [], [], [V2 0 2]; reflexivity|]. replace (turn (V2 0 0) (V2 2 0) (V2 2 2)) with 4 by (unfold turn, area2, mi; cbn; ring). rewrite Rabs_right; lra.
Qed.
(** Fewer than three vertices: each within the tolerance of the plane. *)
Theorem C112_plane_holds_few (P : plane R) (p q : pt) e : unitv (pnormal P) ->
  Plane_ContainsPolygon P [] e = false /\ (Plane_ContainsPolygon P [p] e = true <-> exists x, on_plane P x /\ dist x p <= e) /\
  (Plane_ContainsPolygon P [p; q] e = true <-> (exists x, on_plane P x /\ dist x p <= e) /\ exists x, on_plane P x /\ dist x q <= e).
Proof.
  intros U. assert (G : forall p, Plane_Contains P p e = true <-> exists x, on_plane P x /\ dist x p <= e).
  { intros x. fold (PlaneProps3.within P e x). rewrite <- within_height by exact U. unfold Plane_Contains, Plane_Distance. rewrite Abs_R. change (@Plane_SignedDistance R Num_R) with height. change (@nleb R Num_R) with Rleb. now rewrite Rleb_true. }
  split; [reflexivity|]. split; [apply G|]. cbn [Plane_ContainsPolygon]. rewrite andb_true_iff. now rewrite !G.
Qed.
Print Assumptions C112_plane_holds_few.
(** From three vertices on the tolerance is no longer about the vertices: a triangle all of whose vertices are within it is rejected. *)
Theorem C112_plane_tolerance_refuted : exists (P : plane R) (ps : list pt) (e : R), unitv (pnormal P) /\ 0 < e /\ (forall p, In p ps -> Plane_Contains P p e = true) /\ Plane_ContainsPolygon P ps e = false.
Proof.
  set (P := Pln (V3 0 0 1) 0 : plane R). set (qs := [V2 0 0; V2 1 0; V2 0 1] : list p2). assert (U : unitv (pnormal P)) by (unfold unitv, dot; cbn; ring).
  exists P, (map (embed origin (V3 0 1 0) (V3 0 0 1)) qs), 2. split; [exact U|]. split; [lra|]. split.
  - intros p I. unfold Plane_Contains, Plane_Distance. rewrite Abs_R. change (@Plane_SignedDistance R Num_R) with height. change (@nleb R Num_R) with Rleb. apply Rleb_true. unfold height.
    cbn [map qs In] in I. destruct I as [<-|[<-|[<-|[]]]]; apply Rabs_le; unfold P, embed, dot, plus, scale, origin; cbn; lra.
  - assert (F : frame (V3 0 1 0) (V3 0 0 1)) by (unfold frame, dot; cbn; lra).
    assert (S : spans qs). { exists (V2 0 0), (V2 1 0), (V2 0 1). split; [exists [], [], [], []; reflexivity|]. replace (turn (V2 0 0) (V2 1 0) (V2 0 1)) with 1 by (unfold turn, area2, mi; cbn; ring). rewrite Rabs_right; lra. }
    destruct (C90_plane origin _ _ qs F S) as (Q & s & SG & PL & _ & NQ & _). unfold Plane_ContainsPolygon. rewrite PL. cbn [qs map]. unfold Plane_SetEquals. rewrite NQ.
    assert (FL : forall a b : pt, vz a = 1 -> vz b = 0 -> vEquals a b (nlit 1 1000) = false).
    { intros a b A B. unfold vEquals. rewrite A, B, nlit_R, !Abs_R, !andb_false_iff. right. rsimpl. destruct (Rltb_spec (Rabs (1 - 0)) (1 / 1000)) as [L|L]; [|reflexivity]. rewrite Rabs_right in L; lra. }
    rewrite !FL; [reflexivity|reflexivity| |reflexivity|]; destruct SG as [->| ->]; unfold vneg, scale, cross; cbn; rsimpl; ring.
Qed.
Print Assumptions C112_plane_tolerance_refuted.
