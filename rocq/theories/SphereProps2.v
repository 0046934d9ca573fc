(** C44, continued: distances, closest points, extremes, transforms, boxes. *)
From Coq Require Import Reals Lra Psatz Bool List.
From Verif Require Import Num NumR ScalarModel ScalarProofs Vec3Model GeoTypes GeoSpec GeoLemmas AabbModel AabbSpec LineModel LineSpec
  LineProofs LineProps MatModel MatSpec MatProofs MatProofs2 RotModel RotSpec RotProofs AabbProps PlaneModel PlaneSpec PlaneProps PlaneProps2 PlaneProps4 Vec3Props SphereModel SphereSpec SphereProps.
Import ListNotations.
Open Scope R_scope.

Lemma sphere_fat (s : sphere R) (A : pt -> Prop) x : 0 <= srad s -> distance_is A (single (spos s)) x -> distance_is (in_sphere s) A (Rmax 0 (x - srad s)).
Proof.
  intros H D. apply distance_sym. eapply fat_ext; [intros p; apply fat_sphere|]. apply distance_fat; auto.
Qed.
Lemma single_distance a b : distance_is (single a) (single b) (dist a b).
Proof. split; [exists a, b; repeat split|]. intros x y -> ->. lra. Qed.
(** Distances between the point sets, farthest points, and the common-point test. *)
Theorem C44_distances (s o : sphere R) (p : pt) : 0 <= srad s -> 0 <= srad o ->
  distance_is (in_sphere s) (single p) (Sphere_Distance s p) /\ distance_is (in_sphere s) (in_sphere o) (Sphere_DistanceSphere s o) /\
  ((exists q, in_sphere s q /\ dist p q = Sphere_MaxDistance s p) /\ forall q, in_sphere s q -> dist p q <= Sphere_MaxDistance s p) /\
  (Sphere_IntersectsSphere s o = true <-> exists q, in_sphere s q /\ in_sphere o q).
Proof.
  intros S O. unfold Sphere_Distance, Sphere_DistanceSphere, Sphere_MaxDistance. rewrite !Max_R. change (@Distance R Num_R) with dist. rsimpl. split; [|split; [|split; [split|]]].
  - rewrite (dist_sym (spos s) p). apply sphere_fat; [exact S|apply single_distance].
  - pose proof (sphere_fat s (single (spos o)) (dist (spos o) (spos s)) S (single_distance _ _)) as D1. apply distance_sym in D1.
    pose proof (sphere_fat o (in_sphere s) (Rmax 0 (dist (spos o) (spos s) - srad s)) O) as D2. apply distance_sym in D1.
    apply distance_sym. replace (Rmax 0 (dist (spos s) (spos o) - srad s - srad o)) with (Rmax 0 (Rmax 0 (dist (spos o) (spos s) - srad s) - srad o)); [now apply D2|].
    rewrite (dist_sym (spos o)). unfold Rmax. repeat destruct Rle_dec; lra.
  - destruct (farthest p (spos s) (srad s) S) as (q & Q & E). exists q. split; [unfold in_sphere; lra|exact E].
  - intros q Q. unfold in_sphere in Q. pose proof (dist_triangle p (spos s) q). lra.
  - unfold Sphere_IntersectsSphere. toG. rsimpl. rewrite Rleb_true. change (@LengthSq R Num_R) with (fun a => dot a a). cbv beta.
    change (spos s) with (spos s). rewrite <- (norm_sq_le _ (srad s + srad o)) by lra. change (norm (minus (spos s) (spos o))) with (dist (spos s) (spos o)). split.
    + intros L. destruct (direction (spos s) (spos o)) as (u & U & E). set (d := dist (spos s) (spos o)) in *.
      assert (D0 : 0 <= d) by apply dist_pos. set (t := Rmin (srad s) d). assert (T : 0 <= t <= srad s /\ d - t <= srad o /\ t <= d) by (unfold t, Rmin; destruct Rle_dec; lra). clearbody t.
      exists (plus (spos s) (scale t u)). unfold in_sphere, dist. split.
      * replace (minus (spos s) (plus (spos s) (scale t u))) with (scale (- t) u) by (gunf; apply vec_ext; cbn [vx vy vz]; ring). rewrite norm_scale, (unit_norm1 u U), Rabs_Ropp, Rabs_pos_eq; lra.
      * replace (minus (spos o) (plus (spos s) (scale t u))) with (minus (minus (spos o) (spos s)) (scale t u)) by (gunf; apply vec_ext; cbn [vx vy vz]; ring). rewrite E.
        replace (minus (scale d u) (scale t u)) with (scale (d - t) u) by (gunf; apply vec_ext; cbn [vx vy vz]; ring). rewrite norm_scale, (unit_norm1 u U), Rabs_pos_eq; lra.
    + intros (q & A & B). unfold in_sphere in *. pose proof (dist_triangle (spos s) q (spos o)). rewrite (dist_sym q) in H. lra.
Qed.
Print Assumptions C44_distances.
Example C44_distances_witness : 0 <= srad (Sph (V3 0 0 0) 1) /\ 0 <= srad (Sph (V3 5 0 0) 2) /\ Sphere_DistanceSphere (Sph (V3 0 0 0) 1) (Sph (V3 5 0 0) 2) = 2.
Proof.
  split; [cbn; lra|]. split; [cbn; lra|]. unfold Sphere_DistanceSphere. rewrite Max_R. change (@Distance R Num_R) with dist. rsimpl. cbn [spos srad].
  unfold dist, norm, minus, dot. cbn [vx vy vz]. match goal with |- context [sqrt ?x] => replace x with (5 * 5) by ring end. rewrite sqrt_square by lra. unfold Rmax. destruct Rle_dec; lra.
Qed.

(** The closest point of the ball to any point but its centre (where the code divides zero by zero). *)
Theorem C44_closest_point (s : sphere R) (p : pt) : 0 <= srad s -> p <> spos s -> nearest (in_sphere s) p (Sphere_ClosestPoint s p).
Proof.
  intros S N. unfold Sphere_ClosestPoint. toG. rewrite vmuls_R. change (@Distance R Num_R) with dist. rsimpl. set (d := dist (spos s) p).
  assert (D : 0 < d). { destruct (dist_pos (spos s) p) as [|E]; [assumption|]. symmetry in E. apply dist_zero in E. now subst. }
  set (t := if Rleb (srad s) d then srad s else d). assert (T : 0 <= t <= srad s /\ t <= d /\ (t < srad s -> t = d)) by (unfold t; destruct (Rleb_spec (srad s) d); lra). clearbody t.
  assert (A : dist (spos s) (plus (spos s) (scale (t / d) (minus p (spos s)))) = t).
  { unfold dist. replace (minus (spos s) (plus (spos s) (scale (t / d) (minus p (spos s))))) with (scale (t / d) (minus (spos s) p)) by (gunf; apply vec_ext; cbn [vx vy vz]; ring).
    rewrite norm_scale. change (norm (minus (spos s) p)) with d. rewrite Rabs_pos_eq by (apply Rmult_le_pos; [lra|left; apply Rinv_0_lt_compat, D]). field. lra. }
  assert (B : dist (plus (spos s) (scale (t / d) (minus p (spos s)))) p = d - t).
  { unfold dist. replace (minus (plus (spos s) (scale (t / d) (minus p (spos s)))) p) with (scale (1 - t / d) (minus (spos s) p)) by (gunf; apply vec_ext; cbn [vx vy vz]; ring).
    rewrite norm_scale. change (norm (minus (spos s) p)) with d.
    rewrite Rabs_pos_eq; [field; lra|]. assert (t / d <= 1); [|lra]. apply (Rmult_le_reg_r d); [exact D|]. unfold Rdiv. rewrite Rmult_assoc, Rinv_l by lra. lra. }
  split; [unfold in_sphere; rewrite A; lra|]. intros q Q. rewrite B. unfold in_sphere in Q. pose proof (dist_triangle (spos s) q p). fold d in H. pose proof (dist_pos q p).
  destruct (Rlt_le_dec t (srad s)); [|lra]. assert (t = d) by (apply T; assumption). lra.
Qed.
Print Assumptions C44_closest_point.
Example C44_closest_point_witness : 0 <= srad (Sph (V3 0 0 0) 1) /\ V3 3 0 0 <> spos (Sph (V3 0 0 0) 1).
Proof. split; [cbn; lra|]. cbn. intros E. injection E. lra. Qed.

Lemma and_iff_compat_r' (A B C : Prop) : (C -> (A <-> B)) -> (A /\ C <-> B /\ C).
Proof. tauto. Qed.
(** The circle in which a plane cuts the sphere is exactly the set of common points of plane and surface. *)
Theorem C44_plane_circle (s : sphere R) (P : plane R) : unitv (pnormal P) -> Rabs (height P (spos s)) <= srad s ->
  forall p, on_circle (Sphere_IntersectPlane s P) p <-> on_surface s p /\ on_plane P p.
Proof.
  intros U H p. unfold Sphere_IntersectPlane. rewrite Project_R. set (h := height P (spos s)) in *. set (c := minus (spos s) (scale h (pnormal P))).
  unfold on_circle, on_surface. cbn [circ_pos circ_normal circ_r]. rewrite sq_dist. rsimpl.
  assert (Dc : dist c (spos s) * dist c (spos s) = h * h). { rewrite dist_sym. unfold c. rewrite (dist_shift _ h _ U). rewrite <- Rabs_mult. apply Rabs_pos_eq, Rle_0_sqr. }
  rewrite Dc. assert (K : h * h <= srad s * srad s). { assert (E : h * h = Rabs h * Rabs h) by (rewrite <- Rabs_mult; symmetry; apply Rabs_pos_eq, Rle_0_sqr). rewrite E. pose proof (Rabs_pos h). nra. }
  assert (R0 : 0 <= srad s) by (pose proof (Rabs_pos h); lra).
  assert (PL : dot (pnormal P) (minus p c) = 0 <-> on_plane P p).
  { unfold c, on_plane. rewrite !dot_minus_r, dot_scale_r. unfold unitv in U. rewrite U. unfold h, height. split; lra. }
  rewrite PL, and_comm. apply and_iff_compat_r'. intros Q.
  assert (PY : dist (spos s) p * dist (spos s) p = dist c p * dist c p + h * h).
  { unfold dist. rewrite !norm_sq. replace (minus (spos s) p) with (plus (minus c p) (scale h (pnormal P))) by (unfold c; gunf; apply vec_ext; cbn [vx vy vz]; ring).
    rewrite !dot_plus_l, !dot_plus_r, !dot_scale_l, !dot_scale_r. unfold unitv in U. rewrite U.
    assert (Z : dot (minus c p) (pnormal P) = 0). { rewrite dot_comm. apply PL in Q. rewrite dot_minus_r in Q |- *. lra. } rewrite (dot_comm (pnormal P) (minus c p)), Z. ring. }
  pose proof (dist_pos c p). pose proof (dist_pos (spos s) p). split; intros E.
  - assert (W : dist c p * dist c p = srad s * srad s - h * h) by (rewrite E; apply sqrt_sqrt; lra). nra.
  - rewrite E in PY. replace (srad s * srad s - h * h) with (dist c p * dist c p) by lra. now rewrite sqrt_square.
Qed.
Print Assumptions C44_plane_circle.
Example C44_plane_circle_witness : unitv (pnormal w_plane) /\ Rabs (height w_plane (spos (Sph (V3 0 0 0) 3))) <= srad (Sph (V3 0 0 0) 3).
Proof. split; [unfold unitv, dot; cbn; lra|]. unfold height, dot, w_plane. cbn [pnormal pd spos srad vx vy vz]. rewrite Rabs_left; lra. Qed.

(** Extreme point and projection.  The projection is only right for a unit direction. *)
Theorem C44_extreme (s : sphere R) (v p : pt) : 0 <= srad s -> v <> origin -> in_sphere s p ->
  in_sphere s (Sphere_ExtremePoint s v) /\ dot v p <= dot v (Sphere_ExtremePoint s v) /\
  Sphere_ExtremePointDist s v = (Sphere_ExtremePoint s v, dot v (Sphere_ExtremePoint s v)).
Proof.
  intros S N I. unfold Sphere_ExtremePointDist, Sphere_ExtremePoint. toG. rewrite vmuls_R. change (@Length R Num_R) with norm. rsimpl.
  assert (P : 0 < norm v). { destruct (norm_pos v) as [|E]; [assumption|]. symmetry in E. now apply norm_zero in E. }
  set (e := plus (spos s) (scale (srad s / norm v) v)).
  assert (E : dot v e = dot v (spos s) + srad s * norm v). { unfold e. rewrite dot_plus_r, dot_scale_r, <- norm_sq. field. lra. }
  split; [|split].
  - unfold in_sphere, dist, e. replace (minus (spos s) (plus (spos s) (scale (srad s / norm v) v))) with (scale (- (srad s / norm v)) v) by (gunf; apply vec_ext; cbn [vx vy vz]; ring).
    rewrite norm_scale, Rabs_Ropp, Rabs_pos_eq by (apply Rmult_le_pos; [lra|left; apply Rinv_0_lt_compat, P]). right. field. lra.
  - rewrite E. unfold in_sphere in I. pose proof (cauchy v (minus p (spos s))) as C. rewrite dot_minus_r in C. unfold Rabs in C.
    change (norm (minus p (spos s))) with (dist p (spos s)) in C. rewrite dist_sym in C. destruct Rcase_abs in C; nra.
  - f_equal. apply dot_comm.
Qed.
Print Assumptions C44_extreme.
Theorem C44_project (s : sphere R) (v : pt) : 0 <= srad s -> unitv v ->
  let '(lo, hi) := Sphere_ProjectToAxis s v in forall x, lo <= x <= hi <-> exists p, in_sphere s p /\ dot v p = x.
Proof.
  intros S U. unfold Sphere_ProjectToAxis. toG. rsimpl. intros x. split.
  - intros H. exists (plus (spos s) (scale (x - dot v (spos s)) v)). split.
    + unfold in_sphere, dist. replace (minus (spos s) (plus (spos s) (scale (x - dot v (spos s)) v))) with (scale (- (x - dot v (spos s))) v) by (gunf; apply vec_ext; cbn [vx vy vz]; ring).
      rewrite norm_scale, (unit_norm1 v U), Rabs_Ropp. unfold Rabs. destruct Rcase_abs; lra.
    + rewrite dot_plus_r, dot_scale_r. unfold unitv in U. rewrite U. ring.
  - intros (p & I & <-). unfold in_sphere in I. pose proof (cauchy v (minus p (spos s))) as C. rewrite dot_minus_r, (unit_norm1 v U) in C. unfold Rabs in C.
    change (norm (minus p (spos s))) with (dist p (spos s)) in C. rewrite dist_sym in C. destruct Rcase_abs in C; lra.
Qed.
Print Assumptions C44_project.
Theorem C44_project_refuted : exists (s : sphere R) (v p : pt), 0 <= srad s /\ v <> origin /\ in_sphere s p /\ snd (Sphere_ProjectToAxis s v) < dot v p.
Proof.
  exists (Sph (V3 0 0 0) 1), (V3 2 0 0), (V3 1 0 0). split; [cbn; lra|]. split; [intros E; injection E; lra|]. split.
  - unfold in_sphere, dist, norm, minus, dot. cbn [spos srad vx vy vz]. match goal with |- context [sqrt ?x] => replace x with 1 by ring end. rewrite sqrt_1. lra.
  - unfold Sphere_ProjectToAxis. toG. rsimpl. cbn [snd]. unfold dot. cbn. lra.
Qed.
Print Assumptions C44_project_refuted.
Example C44_extreme_witness : 0 <= srad (Sph (V3 0 0 0) 1) /\ unitv (V3 0 1 0) /\ V3 0 1 0 <> origin /\ in_sphere (Sph (V3 0 0 0) 1) (V3 0 0 0).
Proof.
  split; [cbn; lra|]. split; [unfold unitv, dot; cbn; lra|]. split; [intros E; injection E; lra|]. unfold in_sphere. rewrite (proj2 (dist_zero _ _) eq_refl). cbn. lra.
Qed.

Lemma apply_plus (m : mat3 R) a b : apply m (plus a b) = plus (apply m a) (apply m b).
Proof. unfold apply. gunf. apply vec_ext; cbn [vx vy vz]; ring. Qed.
Lemma apply_scale (m : mat3 R) k a : apply m (scale k a) = scale k (apply m a).
Proof. unfold apply. gunf. apply vec_ext; cbn [vx vy vz]; ring. Qed.
Lemma apply_minus (m : mat3 R) a b : apply m (minus a b) = minus (apply m a) (apply m b).
Proof. unfold apply. gunf. apply vec_ext; cbn [vx vy vz]; ring. Qed.
Lemma scales_dot (m : mat3 R) k : scales_by (apply m) k -> forall a b, dot (apply m a) (apply m b) = k * k * dot a b.
Proof.
  intros H a b. assert (Q : forall v, dot (apply m v) (apply m v) = k * k * dot v v).
  { intros v. rewrite <- !norm_sq, (H v). ring. }
  pose proof (Q (plus a b)) as E. rewrite apply_plus, !dot_plus_l, !dot_plus_r, (Q a), (Q b), (dot_comm (apply m b)), (dot_comm b a) in E. lra.
Qed.
Lemma scales_onto (m : mat3 R) k : 0 < k -> scales_by (apply m) k -> forall q, exists p, q = apply m p.
Proof.
  intros K H q. pose proof (scales_dot m k H) as D. set (ex := V3 1 0 0). set (ey := V3 0 1 0). set (ez := V3 0 0 1).
  assert (P : forall a b, dot (scale (/ k) (apply m ex)) a * dot (scale (/ k) (apply m ex)) b + dot (scale (/ k) (apply m ey)) a * dot (scale (/ k) (apply m ey)) b +
      dot (scale (/ k) (apply m ez)) a * dot (scale (/ k) (apply m ez)) b = dot a b).
  { intros a b. apply parseval; unfold unitv, orth; rewrite dot_scale_l, dot_scale_r, D; unfold dot, ex, ey, ez; cbn [vx vy vz]; field; lra. }
  exists (V3 (dot (apply m ex) q / (k * k)) (dot (apply m ey) q / (k * k)) (dot (apply m ez) q / (k * k))).
  set (p := V3 _ _ _). assert (Ep : p = plus (scale (vx p) ex) (plus (scale (vy p) ey) (scale (vz p) ez))) by (unfold ex, ey, ez, plus, scale; cbn [vx vy vz]; apply vec_ext; cbn [vx vy vz]; ring).
  assert (F : forall b, dot q b = dot (apply m p) b).
  { intros b. rewrite <- P, Ep, !apply_plus, !apply_scale, !dot_plus_l, !dot_scale_l. unfold p. cbn [vx vy vz]. field. lra. }
  apply vec_ext; [pose proof (F ex) as G|pose proof (F ey) as G|pose proof (F ez) as G]; unfold dot, ex, ey, ez in G; cbn [vx vy vz] in G; lra.
Qed.
Lemma scales_col (m : mat3 R) k : scales_by (apply m) k -> Length (col0 m) = k.
Proof.
  intros H. rewrite Length_R. replace (col0 m) with (apply m (V3 1 0 0)) by (unfold apply, col0, dot; cbn [vx vy vz]; apply vec_ext; cbn [vx vy vz]; ring).
  rewrite (H (V3 1 0 0)). unfold norm, dot. cbn [vx vy vz]. replace (1 * 1 + 0 * 0 + 0 * 0) with 1 by ring. rewrite sqrt_1. ring.
Qed.
(** Transforms: with a matrix that scales all lengths by k > 0 the result is the image of the ball; likewise translation and rotation. *)
Theorem C44_transforms (s : sphere R) (m : mat34 R) (a : mat3 R) (q : quat R) (v : pt) (k : R) : 0 < k ->
  (forall p, in_sphere (Sphere_Translate s v) p <-> image (fun x => plus x v) (in_sphere s) p) /\
  (scales_by (apply a) k -> forall p, in_sphere (Sphere_Transform3 s a) p <-> image (apply a) (in_sphere s) p) /\
  (scales_by (apply (lin34 m)) k -> forall p, in_sphere (Sphere_Transform34 s m) p <-> image (apply34 m) (in_sphere s) p) /\
  (unitq q -> forall p, in_sphere (Sphere_TransformQuat s q) p <-> image (apply (FromQuat q)) (in_sphere s) p).
Proof.
  intros K. unfold image, in_sphere.
  assert (L : forall b : mat3 R, forall j, 0 < j -> scales_by (apply b) j -> forall c r p, dist (apply b c) p <= r * j <-> exists x, dist c x <= r /\ p = apply b x).
  { intros b j J S c r p. assert (E : forall x, dist (apply b c) (apply b x) = j * dist c x) by (intros x; unfold dist; rewrite <- apply_minus; apply S). split.
    - intros H. destruct (scales_onto b j J S p) as (x & ->). exists x. split; [|reflexivity]. rewrite E in H. nra.
    - intros (x & H & ->). rewrite E. nra. }
  split; [|split; [|split]].
  - intros p. unfold Sphere_Translate. toG. cbn [spos srad].
    assert (E : forall x, dist (plus (spos s) v) (plus x v) = dist (spos s) x) by (intros x; unfold dist; f_equal; gunf; apply vec_ext; cbn [vx vy vz]; ring). split.
    + intros H. exists (minus p v). replace p with (plus (minus p v) v) in H at 1 by (gunf; apply vec_ext; cbn [vx vy vz]; ring). rewrite E in H. split; [exact H|]. gunf; apply vec_ext; cbn [vx vy vz]; ring.
    + intros (x & H & ->). now rewrite E.
  - intros S p. unfold Sphere_Transform3. cbn [spos srad]. rewrite (scales_col a k S). rsimpl. apply (L a k K S).
  - intros S p. unfold Sphere_Transform34. cbn [spos srad]. rewrite (scales_col _ k S), mulpos34_apply. rsimpl. unfold apply34.
    transitivity (dist (apply (lin34 m) (spos s)) (minus p (trans34 m)) <= srad s * k).
    { replace (dist (plus (apply (lin34 m) (spos s)) (trans34 m)) p) with (dist (apply (lin34 m) (spos s)) (minus p (trans34 m))); [reflexivity|]. unfold dist. f_equal. gunf; apply vec_ext; cbn [vx vy vz]; ring. }
    rewrite (L _ k K S). split; intros (x & H & E); exists x; (split; [exact H|]).
    + rewrite <- E. gunf; apply vec_ext; cbn [vx vy vz]; ring.
    + rewrite E. gunf; apply vec_ext; cbn [vx vy vz]; ring.
  - intros U p. unfold Sphere_TransformQuat. cbn [spos srad]. change (mulv (FromQuat q) (spos s)) with (apply (FromQuat q) (spos s)).
    assert (S : scales_by (apply (FromQuat q)) 1). { intros x. destruct (quat_rotation q U) as (D & _). unfold norm. rewrite D. ring. }
    rewrite <- (L (FromQuat q) 1 Rlt_0_1 S (spos s) (srad s) p). now rewrite Rmult_1_r.
Qed.
Print Assumptions C44_transforms.
Example C44_transforms_witness : 0 < 2 /\ scales_by (apply (M3 (V3 0 2 0) (V3 (-2) 0 0) (V3 0 0 2))) 2 /\ unitq (Q4 0 (3/5) 0 (4/5)).
Proof.
  split; [lra|]. split.
  - intros v. replace (2 * norm v) with (norm (scale 2 v)) by (rewrite norm_scale, Rabs_pos_eq; lra). unfold norm. f_equal. unfold apply, dot, scale. cbn [row0 row1 row2 vx vy vz]. ring.
  - unfold unitq. cbn. lra.
Qed.

(** The enclosing box is the smallest; the "maximal contained" box is contained, but only half as large as it could be. *)
Lemma third_root : (1 / sqrt 3) * (1 / sqrt 3) * 3 = 1 /\ 0 < 1 / sqrt 3.
Proof.
  assert (A : 0 < sqrt 3) by (apply sqrt_lt_R0; lra). assert (B : sqrt 3 * sqrt 3 = 3) by (apply sqrt_sqrt; lra). split.
  - replace (1 / sqrt 3 * (1 / sqrt 3)) with (1 / (sqrt 3 * sqrt 3)) by (field; lra). rewrite B. field.
  - apply Rdiv_lt_0_compat; lra.
Qed.
Theorem C44_boxes (s : sphere R) : 0 <= srad s ->
  (forall c, (forall p, in_box (Sphere_MinimalEnclosingAABB s) p -> in_box c p) <-> (forall p, in_sphere s p -> in_box c p)) /\
  (forall p, in_box (Sphere_MaximalContainedAABB s) p -> in_sphere s p).
Proof.
  intros S. split.
  - apply (C19_set_from_shapes (Obb origin origin origin origin origin) s); [unfold item_ok, origin; cbn; lra|exact S].
  - intros p. unfold Sphere_MaximalContainedAABB, AABB_SetFromCenterAndSize, in_box, in_sphere. cbn [minPoint maxPoint]. toG. rewrite !nlit_R. rsimpl. intros (X & Y & Z).
    destruct third_root as [E P]. replace (3 / 1) with 3 in * by field. set (k := 1 / sqrt 3) in *. clearbody k.
    unfold dist. apply norm_sq_le; [exact S|]. unfold dot, minus, plus, scale in *. cbn [vx vy vz] in *. set (h := 1 / 2 * (srad s * k)) in *. assert (H : 4 * (h * h) * 3 = srad s * srad s).
    { replace (4 * (h * h) * 3) with (srad s * srad s * (k * k * 3)) by (unfold h; field). rewrite E. ring. } clearbody h.
    assert (B : forall d, - h <= d <= h -> d * d <= h * h) by (intros; nra).
    pose proof (B (vx (spos s) - vx p) ltac:(lra)). pose proof (B (vy (spos s) - vy p) ltac:(lra)). pose proof (B (vz (spos s) - vz p) ltac:(lra)). pose proof (Rle_0_sqr h). unfold Rsqr in *. lra.
Qed.
Print Assumptions C44_boxes.
(** The cube with sides 2r/sqrt 3 promised by the documentation also fits, so the returned one is not maximal. *)
Theorem C44_maximal_box_refuted (s : sphere R) : 0 < srad s -> exists b, (forall p, in_box b p -> in_sphere s p) /\
  (forall p, in_box (Sphere_MaximalContainedAABB s) p -> in_box b p) /\ vx (maxPoint b) - vx (minPoint b) = 2 * srad s / sqrt 3 /\
  vx (maxPoint (Sphere_MaximalContainedAABB s)) - vx (minPoint (Sphere_MaximalContainedAABB s)) = srad s / sqrt 3.
Proof.
  intros S. destruct third_root as [E P]. set (k := 1 / sqrt 3) in *. assert (Ek : forall x, x / sqrt 3 = x * k) by (intros; unfold k; field; apply Rgt_not_eq, sqrt_lt_R0; lra).
  exists (Box (minus (spos s) (scale (srad s * k) (V3 1 1 1))) (plus (spos s) (scale (srad s * k) (V3 1 1 1)))).
  unfold Sphere_MaximalContainedAABB, AABB_SetFromCenterAndSize, in_box, in_sphere. cbn [minPoint maxPoint]. toG. rewrite !nlit_R. rsimpl. replace (3 / 1) with 3 by field.
  rewrite !Ek. fold k. clearbody k. unfold minus, plus, scale. cbn [vx vy vz]. repeat split; try nra.
  intros p (X & Y & Z). unfold dist. apply norm_sq_le; [lra|]. unfold dot, minus. cbn [vx vy vz]. set (h := srad s * k) in *. assert (H : h * h * 3 = srad s * srad s).
  { unfold h. replace (srad s * k * (srad s * k) * 3) with (srad s * srad s * (k * k * 3)) by ring. rewrite E. ring. } clearbody h.
  assert (B : forall d, - h <= d <= h -> d * d <= h * h) by (intros; nra).
  pose proof (B (vx (spos s) - vx p) ltac:(lra)). pose proof (B (vy (spos s) - vy p) ltac:(lra)). pose proof (B (vz (spos s) - vz p) ltac:(lra)). lra.
Qed.
Print Assumptions C44_maximal_box_refuted.
Example C44_boxes_witness : 0 < srad (Sph (V3 1 2 3) 4). Proof. cbn. lra. Qed.

(** Volume: the primitive of the areas of the discs cut by parallel planes (Cavalieri); the surface is its growth with the radius. *)
Theorem C44_volume (s : sphere R) : 0 <= srad s ->
  (exists F, (forall h, derivable_pt_lim F h (PI * (srad s * srad s - h * h))) /\ Sphere_Volume PI s = F (srad s) - F (- srad s)) /\
  derivable_pt_lim (fun r => Sphere_Volume PI (Sph (spos s) r)) (srad s) (Sphere_SurfaceArea PI s).
Proof.
  intros S. unfold Sphere_Volume, Sphere_SurfaceArea. cbn [srad]. rewrite !nlit_R. rsimpl. split.
  - exists (fun h => (srad s * srad s * PI) * h - PI / 3 * (h * h * h)). split; [|field].
    intros h. replace (PI * (srad s * srad s - h * h)) with (srad s * srad s * PI * 1 - PI / 3 * ((1 * h + h * 1) * h + h * h * 1)) by field.
    apply derivable_pt_lim_minus; apply derivable_pt_lim_scal; [apply derivable_pt_lim_id|].
    apply (derivable_pt_lim_mult (fun h => h * h) (fun h => h)); [apply (derivable_pt_lim_mult (fun h => h) (fun h => h))|]; apply derivable_pt_lim_id.
  - apply (derivable_pt_lim_ext (fun r => (4 * PI / 3) * (r * r * r))); [intros; field|].
    replace (4 / 1 * PI * srad s * srad s) with (4 * PI / 3 * ((1 * srad s + srad s * 1) * srad s + srad s * srad s * 1)) by field.
    apply derivable_pt_lim_scal. apply (derivable_pt_lim_mult (fun h => h * h) (fun h => h)); [apply (derivable_pt_lim_mult (fun h => h) (fun h => h))|]; apply derivable_pt_lim_id.
Qed.
Print Assumptions C44_volume.
