(** C109: random vectors, rotations and points of boxes, capsules and polygons, whatever numbers the generator returns. *)
From Coq Require Import Reals List Bool Lra Lia Arith Psatz Permutation.
From Verif Require Import Num NumR ScalarModel ScalarProofs Vec3Model Vec3Props Vec2Model Vec2Spec GeoTypes GeoSpec GeoLemmas AabbModel AabbSpec AabbProofs AabbProps2 MatModel MatSpec MatProofs MatProofs2 LineModel LineSpec LineProofs LineProps
  RotModel RotSpec RotProofs PlaneModel PlaneSpec PlaneProps SphereModel SphereSpec SphereProps SphereProps6 TriangleModel TriangleSpec TriangleProps TriangleProps7 ObbModel ObbProps ObbProps3 CircleModel CapsuleModel CapsuleProps CapsuleProps2 CapsuleProps3
  Vec2Props HullSpec HullProofs HullProps2 PlaneTestProofs PolygonModel PolygonSpec PolygonProofs PolygonProps PolygonProps2 PolygonProps3 PolygonProps5 FrustumModel RandomModel.
Import ListNotations.
Open Scope R_scope.
Ltac Zify.zify_post_hook ::= idtac.

(** The numbers of a list, then zeros. *)
Definition draws (l : list R) (k : nat) : R := nth k l 0.
Definition within (lo hi : R) (draw : nat -> R) : Prop := forall k, lo <= draw k <= hi.
Lemma draws_within lo hi l : lo <= 0 <= hi -> Forall (fun x => lo <= x <= hi) l -> within lo hi (draws l).
Proof. intros Z F k. unfold draws. destruct (nth_in_or_default k l 0) as [I|E]; [exact (proj1 (Forall_forall _ _) F _ I)|rewrite E; exact Z]. Qed.
Lemma sq_le (a s r : R) : 0 <= s -> 0 <= r -> a * a + s <= r * r -> - r <= a <= r. Proof. intros; split; nra. Qed.
Lemma squares_within x y z w r : 0 <= r -> x * x + y * y + z * z + w * w <= r * r -> Forall (fun t => - r <= t <= r) [x; y; z; w].
Proof.
  intros R0 H. pose proof (Rle_0_sqr x). pose proof (Rle_0_sqr y). pose proof (Rle_0_sqr z). pose proof (Rle_0_sqr w). unfold Rsqr in *.
  repeat (apply Forall_cons; [first [apply (sq_le x (y * y + z * z + w * w)); lra | apply (sq_le y (x * x + z * z + w * w)); lra | apply (sq_le z (x * x + y * y + w * w)); lra | apply (sq_le w (x * x + y * y + z * z)); lra]|]). constructor.
Qed.
Lemma squares3 x y z r : 0 <= r -> x * x + y * y + z * z <= r * r -> Forall (fun t => - r <= t <= r) [x; y; z].
Proof. intros R0 H. pose proof (squares_within x y z 0 r R0 ltac:(lra)) as F. rewrite Forall_forall in *. intros t I. apply F. cbn in *. tauto. Qed.
Lemma squares2 x y r : 0 <= r -> x * x + y * y <= r * r -> Forall (fun t => - r <= t <= r) [x; y].
Proof. intros R0 H. pose proof (squares_within x y 0 0 r R0 ltac:(lra)) as F. rewrite Forall_forall in *. intros t I. apply F. cbn in *. tauto. Qed.

(** Directions, points of a ball and of a box: in the documented set for every outcome of the generator, and every member of the set is an outcome. *)
Theorem C109_vectors (len r : R) (c lo hi : pt) : 0 <= len -> 0 <= r -> box_ok (Box lo hi) ->
  (forall draw, norm (Vec3_RandomDir draw len) = len) /\ (forall d, norm d = len -> exists draw, within (-1) 1 draw /\ Vec3_RandomDir draw len = d) /\
  (forall draw, dist c (Vec3_RandomSphere draw c r) <= r) /\ (forall p, dist c p <= r -> exists draw, within (- r) r draw /\ Vec3_RandomSphere draw c r = p) /\
  (forall draw, within 0 1 draw -> in_box (Box lo hi) (Vec3_RandomBox draw lo hi)) /\ (forall p, in_box (Box lo hi) p -> exists draw, within 0 1 draw /\ Vec3_RandomBox draw lo hi = p).
Proof.
  intros L0 R0 B.
  assert (SURF : forall draw, norm (Vec3_RandomDir draw len) = len).
  { intros draw. destruct (C79_random (Sph (V3 0 0 0) len) draw L0) as [_ H]. unfold on_surface in H. cbn [spos srad] in H. rewrite dist_sym in H. unfold dist in H. assert (Z : forall v : pt, minus v (V3 0 0 0) = v) by (intros v; unfold minus; apply vec_ext; cbn [vx vy vz]; ring). rewrite Z in H. exact H. }
  split; [exact SURF|]. split; [|split; [|split; [|split]]].
  - intros d N. destruct (Req_dec len 0) as [->|NZ].
    + exists (draws []). split; [apply draws_within; [lra|constructor]|]. apply norm_zero in N. pose proof (SURF (draws [])) as Z. apply norm_zero in Z. now rewrite Z, N.
    + assert (DD : dot d d = len * len) by (rewrite <- norm_sq, N; reflexivity). set (u := scale (/ len) d). assert (UU : dot u u = 1) by (unfold u; rewrite dot_scale_l, dot_scale_r, DD; field; exact NZ).
      exists (draws [vx u; vy u; vz u]). assert (U3 : vx u * vx u + vy u * vy u + vz u * vz u = 1) by exact UU. split.
      * apply draws_within; [lra|]. apply squares3; lra.
      * unfold Vec3_RandomDir, Sphere_RandomPointOnSurface. change 1000%nat with (S 999). generalize 999%nat. intros m. cbn [random_surface]. cbv zeta. change (V3 ((draws [vx u; vy u; vz u]) 0%nat) ((draws [vx u; vy u; vz u]) (0 + 1)%nat) ((draws [vx u; vy u; vz u]) (0 + 2)%nat)) with (V3 (vx u) (vy u) (vz u)).
        replace (V3 (vx u) (vy u) (vz u)) with u by (apply vec_ext; reflexivity). rewrite LengthSq_R, nlit_R. rsimpl. rewrite UU. destruct (Rleb_spec (1 / 1000000) 1) as [_|K]; [|lra]. destruct (Rleb_spec 1 1) as [_|K]; [|lra]. cbn [andb]. rewrite sqrt_1. cbn [spos srad].
        unfold u. vunf. unfold scale. apply vec_ext; cbn [vx vy vz]; rsimpl; field; exact NZ.
  - intros draw. exact (proj1 (C79_random (Sph c r) draw R0)).
  - intros p D. set (v := minus p c). assert (VV : dot v v <= r * r). { assert (N : norm v <= r) by (unfold v; change (norm (minus p c)) with (dist p c); rewrite dist_sym; exact D). rewrite <- norm_sq. pose proof (norm_pos v). nra. }
    exists (draws [vx v; vy v; vz v]). assert (V3' : vx v * vx v + vy v * vy v + vz v * vz v <= r * r) by exact VV. split.
    + apply draws_within; [lra|]. apply squares3; lra.
    + unfold Vec3_RandomSphere, Sphere_RandomPointInside. change 1000%nat with (S 999). generalize 999%nat. intros m. cbn [random_inside]. cbv zeta. change (V3 ((draws [vx v; vy v; vz v]) 0%nat) ((draws [vx v; vy v; vz v]) (0 + 1)%nat) ((draws [vx v; vy v; vz v]) (0 + 2)%nat)) with (V3 (vx v) (vy v) (vz v)).
        replace (V3 (vx v) (vy v) (vz v)) with v by (apply vec_ext; reflexivity). rewrite LengthSq_R. rsimpl. cbn [srad spos].
      destruct (Rleb_spec (dot v v) (r * r)) as [_|K]; [|lra]. unfold v. vunf. unfold minus. apply vec_ext; cbn [vx vy vz]; rsimpl; ring.
  - intros draw W. apply (C24_point_inside (Box lo hi)); auto.
  - intros p I. destruct (C24_point_inside (Box lo hi) 0 0 0 B) as [_ H]; try lra. destruct (H p I) as (x & y & z & X & Y & Z & ->). exists (draws [x; y; z]). split; [apply draws_within; [lra|repeat first [apply Forall_nil | apply Forall_cons; [assumption|]]]|reflexivity].
Qed.
Print Assumptions C109_vectors.
Example C109_vectors_witness : 0 <= 2 /\ 0 <= 3 /\ box_ok (Box (V3 0 0 0) (V3 1 2 3)). Proof. unfold box_ok. cbn. lra. Qed.

(** Directions of the plane. *)
Theorem C109_dir2 (r : R) : 0 <= r -> (forall draw, Vec2Spec.nrm (Vec2_RandomDir draw r) = r) /\ (1 / 1000 <= r -> forall d, Vec2Spec.nrm d = r -> exists draw, within (- r) r draw /\ Vec2_RandomDir draw r = d).
Proof.
  intros R0. split.
  - intros draw. unfold Vec2_RandomDir. enough (G : forall m k, Vec2Spec.nrm (random_dir2 m k draw r) = r) by apply G. induction m as [|m IH]; intros k; cbn [random_dir2].
    + unfold Vec2Spec.nrm, dt. cbn [x2 y2]. rsimpl. replace (r * r + 0 * 0) with (r * r) by ring. now apply sqrt_square.
    + cbv zeta. rewrite nlit_R. rsimpl. set (x := draw k). set (y := draw (k + 1)%nat). destruct (Rleb_spec (1 / 1000000) (x * x + y * y)) as [H|H]; cbn [andb]; [|apply IH]. destruct (Rleb_spec (x * x + y * y) (r * r)) as [K|K]; [|apply IH].
      unfold smul2, Vec2Spec.nrm, dt. cbn [x2 y2]. rsimpl. pose proof (sqrt_lt_R0 (x * x + y * y) ltac:(lra)) as SP. pose proof (sqrt_sqrt (x * x + y * y) ltac:(lra)) as SS. set (s := sqrt (x * x + y * y)) in *.
      apply sqrt_lem_1; [nra|exact R0|]. transitivity (r * r * (x * x + y * y) / (s * s)); [rewrite SS; field; lra|field; lra].
  - intros RP d N. exists (draws [x2 d; y2 d]). assert (DD : x2 d * x2 d + y2 d * y2 d = r * r). { pose proof (sqrt_sqrt (dt d d)) as S. unfold Vec2Spec.nrm in N. rewrite N in S. rewrite S; [reflexivity|unfold dt; nra]. } split.
    + apply draws_within; [lra|]. apply squares2; lra.
    + unfold Vec2_RandomDir. change 1000%nat with (S 999). generalize 999%nat. intros m. cbn [random_dir2]. cbv zeta. change (draws [x2 d; y2 d] 0) with (x2 d). change (draws [x2 d; y2 d] (0 + 1)) with (y2 d). rewrite nlit_R. rsimpl. rewrite DD. destruct (Rleb_spec (1 / 1000000) (r * r)) as [_|K]; [|exfalso; nra]. destruct (Rleb_spec (r * r) (r * r)) as [_|K]; [|lra]. cbn [andb].
      rewrite sqrt_square by exact R0. unfold smul2. destruct d as [a b]. cbn [x2 y2]. rsimpl. f_equal; field; lra.
Qed.
Print Assumptions C109_dir2.

(** Random rotations are rotations, and every rotation given by a unit quaternion is an outcome. *)
Theorem C109_rotations : (forall draw, unitq (Quat_RandomRotation draw) /\ rotation (apply (Mat3_RandomRotation draw))) /\ forall q, unitq q -> exists draw, within (-1) 1 draw /\ Quat_RandomRotation draw = q.
Proof.
  assert (U : forall draw, unitq (Quat_RandomRotation draw)).
  { intros draw. unfold Quat_RandomRotation. enough (G : forall m k, unitq (random_quat m k draw)) by apply G. induction m as [|m IH]; intros k; cbn [random_quat].
    + unfold unitq, QIdentity. cbn. ring.
    + cbv zeta. rewrite nlit_R. rsimpl. set (x := draw k). set (y := draw (k + 1)%nat). set (z := draw (k + 2)%nat). set (w := draw (k + 3)%nat). set (n := x * x + y * y + z * z + w * w). destruct (Rleb_spec (1 / 1000000) n) as [H|H]; cbn [andb]; [|apply IH]. destruct (Rleb_spec n 1) as [K|K]; [|apply IH].
      pose proof (sqrt_lt_R0 n ltac:(lra)) as SP. pose proof (sqrt_sqrt n ltac:(lra)) as SS. set (s := sqrt n) in *. unfold unitq, QDivS, QMulS. cbn [qx qy qz qw]. rsimpl. transitivity (n / (s * s)); [unfold n; field; lra|rewrite SS; field; lra]. }
  split; [intros draw; split; [apply U|apply quat_rotation, U]|].
  intros [x y z w] Q. unfold unitq in Q. cbn [qx qy qz qw] in Q. exists (draws [x; y; z; w]). split; [apply draws_within; [lra|]; apply squares_within; lra|].
  unfold Quat_RandomRotation. change 1000%nat with (S 999). generalize 999%nat. intros m. cbn [random_quat]. cbv zeta. rewrite nlit_R. change (draws [x; y; z; w] 0) with x. change (draws [x; y; z; w] (0 + 1)) with y. change (draws [x; y; z; w] (0 + 2)) with z. change (draws [x; y; z; w] (0 + 3)) with w. rsimpl. rewrite Q.
  destruct (Rleb_spec (1 / 1000000) 1) as [_|K]; [|lra]. destruct (Rleb_spec 1 1) as [_|K]; [|lra]. cbn [andb]. rewrite sqrt_1. unfold QDivS, QMulS. cbn [qx qy qz qw]. rsimpl. f_equal; field.
Qed.
Print Assumptions C109_rotations.
Example C109_rotations_witness : unitq (Q4 0 (3 / 5) 0 (4 / 5)). Proof. unfold unitq. cbn. lra. Qed.

(** A random perpendicular is a unit vector orthogonal to the given one -- unless the random direction happens to be parallel to it: then the answer is (0, 0, 1), whatever the vector. *)
Theorem C109_perpendicular (draw : nat -> R) (v : pt) : let p := Vec3_RandomPerpendicular draw v in
  unitv p /\ (1 / 1000000 < norm (cross v (Vec3_RandomDir draw 1)) -> orth v p) /\ (norm (cross v (Vec3_RandomDir draw 1)) <= 1 / 1000000 -> p = V3 0 0 1).
Proof.
  intros p. unfold p, Vec3_RandomPerpendicular. rsimpl. destruct (C27_perpendicular v (Vec3_RandomDir draw 1) (V3 0 0 1)) as [A B]. change (@Cross R Num_R) with cross in *.
  destruct (Rlt_le_dec (1 / 1000000) (norm (cross v (Vec3_RandomDir draw 1)))) as [L|L].
  - destruct (A L) as (U & O & _). split; [exact U|]. split; [intros _; exact O|lra].
  - rewrite (B L). split; [unfold unitv, dot; cbn; ring|]. split; [lra|reflexivity].
Qed.
Print Assumptions C109_perpendicular.
Theorem C109_perpendicular_refuted : exists draw, within (-1) 1 draw /\ unitv (V3 0 0 1) /\ Vec3_RandomPerpendicular draw (V3 0 0 1) = V3 0 0 1.
Proof.
  destruct (C109_vectors 1 0 origin origin origin) as (_ & O & _); [lra|lra|unfold box_ok, origin; cbn; lra|]. destruct (O (V3 0 0 1)) as (draw & W & E); [unfold norm, dot; cbn; replace (0 * 0 + 0 * 0 + 1 * 1) with 1 by ring; apply sqrt_1|].
  exists draw. split; [exact W|]. split; [unfold unitv, dot; cbn; ring|]. apply (C109_perpendicular draw (V3 0 0 1)). rewrite E. replace (cross (V3 0 0 1) (V3 0 0 1)) with (origin : pt) by (unfold cross, origin; apply vec_ext; cbn; ring). unfold norm, dot, origin. cbn. replace (0 * 0 + 0 * 0 + 0 * 0) with 0 by ring. rewrite sqrt_0. lra.
Qed.
Print Assumptions C109_perpendicular_refuted.

(** Boxes: points inside, on the surface, on the edges, and corners; inside, every point of the box is an outcome. *)
Theorem C109_aabb (b : aabb R) : box_ok b ->
  (forall draw, within 0 1 draw -> in_box b (AABB_RandomPointInside b draw)) /\ (forall p, in_box b p -> exists draw, within 0 1 draw /\ AABB_RandomPointInside b draw = p) /\
  (forall draw i, within 0 1 draw -> (i < 6)%nat -> let p := AABB_RandomPointOnSurface b i draw in in_box b p /\ forall q, in_box b q -> dot (AABB_FaceNormal i) q <= dot (AABB_FaceNormal i) p) /\
  (forall draw i, within 0 1 draw -> (i < 12)%nat -> exists j, (j < 12)%nat /\ on_segment (AABB_Edge b j) (AABB_RandomPointOnEdge b i draw)).
Proof.
  intros B. split; [|split; [|split]].
  - intros draw W. now apply C24_point_inside.
  - intros p I. destruct (C24_point_inside b 0 0 0 B) as [_ H]; try lra. destruct (H p I) as (x & y & z & X & Y & Z & ->). exists (draws [x; y; z]). split; [apply draws_within; [lra|repeat first [apply Forall_nil | apply Forall_cons; [assumption|]]]|reflexivity].
  - intros draw i W I p. destruct (C24_faces b i (draw 0%nat) (draw 1%nat) I B (W _) (W _)) as (H1 & H2 & _). now split.
  - intros draw i W I. exists (edge_of_point i). split; [do 12 (destruct i as [|i]; [cbn; lia|]); exfalso; lia|]. exists (draw 0%nat). split; [apply W|]. unfold AABB_RandomPointOnEdge. apply (C24_point_on_edge b i (draw 0%nat) I).
Qed.
Print Assumptions C109_aabb.
Theorem C109_obb (o : obb R) : framed o -> obb_ok o ->
  (forall draw k, within 0 1 draw -> in_obb o (OBB_RandomPointInside o k draw)) /\ (forall p, in_obb o p -> exists draw, within 0 1 draw /\ OBB_RandomPointInside o 0 draw = p) /\
  (forall draw i, within 0 1 draw -> (i < 6)%nat -> exists j, (j < 6)%nat /\ in_obb o (OBB_RandomPointOnSurface o i draw) /\ on_plane (OBB_FacePlane o j) (OBB_RandomPointOnSurface o i draw)) /\
  (forall draw i, within 0 1 draw -> (i < 12)%nat -> exists j, (j < 12)%nat /\ on_segment (OBB_Edge o j) (OBB_RandomPointOnEdge o i draw)) /\
  (forall i, (i < 8)%nat -> in_obb o (OBB_RandomCornerPoint o i)).
Proof.
  intros F K. split; [|split; [|split; [|split]]].
  - intros draw k W. apply C51_point_inside; [exact K|]. exists (draw k), (draw (k + 1)%nat), (draw (k + 2)%nat). repeat split; try apply W.
  - intros p I. apply (C51_point_inside o K) in I. destruct I as (x & y & z & X & Y & Z & ->). exists (draws [x; y; z]). split; [apply draws_within; [lra|repeat first [apply Forall_nil | apply Forall_cons; [assumption|]]]|reflexivity].
  - intros draw i W I. exists (face_number i). split; [do 6 (destruct i as [|i]; [cbn; lia|]); exfalso; lia|]. apply (C51_faces o i F K I). exists (draw 0%nat), (draw 1%nat). split; [apply W|]. split; [apply W|reflexivity].
  - intros draw i W I. exists (edge_number i). split; [do 12 (destruct i as [|i]; [cbn; lia|]); exfalso; lia|]. exists (draw 0%nat). split; [apply W|]. unfold OBB_RandomPointOnEdge. apply (proj2 (C51_point_on_edge_actual o) i (draw 0%nat) I).
  - intros i I. now apply C51_corners.
Qed.
Print Assumptions C109_obb.
Example C109_boxes_witness : box_ok (Box (V3 0 0 0) (V3 1 2 3)) /\ framed (Obb (V3 0 0 0) (V3 1 2 3) (V3 1 0 0) (V3 0 1 0) (V3 0 0 1)) /\ obb_ok (Obb (V3 0 0 0) (V3 1 2 3) (V3 1 0 0) (V3 0 1 0) (V3 0 0 1)).
Proof. unfold box_ok, framed, obb_ok, unitv, orth, dot. cbn. repeat split; lra. Qed.

(** Capsules: every outcome lies in the capsule, for any number of tries, and every point of it is an outcome. *)
Theorem C109_capsule (c : capsule R) : long_axis c -> 0 <= cap_r c ->
  (forall draw, in_capsule c (Capsule_RandomPointInside c draw)) /\ (forall p, in_capsule c p -> exists draw, within 0 1 draw /\ Capsule_RandomPointInside c draw = p) /\
  (forall p, in_obb (Capsule_MinimalEnclosingOBB c) p <-> exists h x y, 0 <= h <= 1 /\ 0 <= x <= 1 /\ 0 <= y <= 1 /\ p = Capsule_UniformPointPerhapsInside c h x y).
Proof.
  intros L R0. set (o := Capsule_MinimalEnclosingOBB c). destruct (C50_boxes c R0) as [_ H]. specialize (H L). cbv zeta in H. fold o in H. destruct H as (IN & _).
  pose proof (C50_height c L R0) as HH. cbv zeta in HH. destruct HH as (_ & _ & IB & _ & IC & _).
  assert (K : obb_ok o) by (destruct (IN _ IB) as (x & y & z & X & Y & Z & _); unfold obb_ok; lra).
  split; [|split].
  - intros draw. unfold Capsule_RandomPointInside. enough (G : forall m k, in_capsule c (random_capsule m k c draw)) by apply G. induction m as [|m IH]; intros k; cbn [random_capsule].
    + exact IC.
    + cbv zeta. destruct (Capsule_Contains c _) eqn:E; [now apply C50_contains|apply IH].
  - intros p I. pose proof (IN p I) as IO. apply (C51_point_inside o K) in IO. destruct IO as (x & y & z & X & Y & Z & ->). exists (draws [x; y; z]). split; [apply draws_within; [lra|repeat first [apply Forall_nil | apply Forall_cons; [assumption|]]]|].
    unfold Capsule_RandomPointInside. change 1000%nat with (S 999). generalize 999%nat. intros m. cbn [random_capsule]. cbv zeta. fold o. change (OBB_RandomPointInside o 0 (draws [x; y; z])) with (OBB_PointInside o x y z). now rewrite (proj2 (C50_contains c _) I).
  - exact (C51_point_inside o K).
Qed.
Print Assumptions C109_capsule.
Example C109_capsule_witness : let c := Cap (Seg (V3 0 0 0) (V3 4 0 0)) 1 in long_axis c /\ 0 <= cap_r c.
Proof. intros c. split; [apply C50_height_witness|cbn; lra]. Qed.

(** Polygons: for a convex polygon every outcome lies in it, and every point of it is an outcome; a random point of the boundary lies on an edge. *)
Theorem C109_polygon (o U V : pt) (q0 q1 : p2) (rest : list p2) : let qs := q0 :: q1 :: rest in let ps := map (embed o U V) qs in frame U V -> spans qs -> eps6 < dst q0 q1 -> ccw_polygon qs ->
  (forall i s t, (i < length qs - 2)%nat -> 0 <= s <= 1 -> 0 <= t <= 1 -> exists q, Poly_FastRandomPointInside ps i s t = Some (embed o U V q) /\ in_hull2 qs q) /\
  (forall q, in_hull2 qs q -> exists i s t, (i < length qs - 2)%nat /\ 0 <= s <= 1 /\ 0 <= t <= 1 /\ Poly_FastRandomPointInside ps i s t = Some (embed o U V q)) /\
  (forall f, 0 <= f <= 1 -> exists a b k, In (a, b) (polygon_edges qs) /\ 0 <= k <= 1 /\ Poly_RandomPointOnEdge ps f = Some (embed o U V (pl a (sc k (mi b a))))).
Proof.
  intros qs ps FR SP L CCW. destruct (C94_convex o U V q0 q1 rest FR SP L CCW) as (TR & LT & _ & COV). fold qs in TR, LT, COV. fold ps in TR, LT, COV.
  assert (TRI : forall tr p, in_triangle tr p <-> exists s k, 0 <= s <= 1 /\ 0 <= k <= 1 /\ Tri_RandomPointInside tr s k = p) by (intros [a b c] p; apply (C80_random (Tri a b c) 0)).
  split; [|split].
  - intros i s t I S T. unfold Poly_FastRandomPointInside. destruct (nth_error (Poly_Triangulate ps) i) as [tr|] eqn:E; [|apply nth_error_None in E; lia]. cbn [option_map]. pose proof (nth_error_In _ _ E) as IT.
    pose proof (proj2 (TRI tr (Tri_RandomPointInside tr s t)) (ex_intro _ s (ex_intro _ t (conj S (conj T eq_refl))))) as IN.
    pose proof IT as IT'. rewrite TR in IT'. apply in_map_iff in IT' as (((a & b) & c) & <- & _). pose proof IN as (u & v & w & Hu & Hv & Hw & HS & EQ). cbn [tri_of tri_a tri_b tri_c] in EQ.
    exists (pl (sc u a) (pl (sc v b) (sc w c))). assert (EE : Tri_RandomPointInside (tri_of (embed o U V) (a, b, c)) s t = embed o U V (pl (sc u a) (pl (sc v b) (sc w c)))).
    { eapply eq_trans; [exact EQ|]. replace u with (1 - v - w) by lra. unfold embed, pl, sc, plus, scale. apply vec_ext; cbn [vx vy vz x2 y2]; ring. }
    split; [now rewrite EE|]. apply COV. exists (tri_of (embed o U V) (a, b, c)). split; [exact IT|]. rewrite <- EE. exact IN.
  - intros q Q. apply (proj1 (COV q)) in Q. destruct Q as (tr & I & IN). destruct (@List.In_nth_error (triangle R) (Poly_Triangulate ps) tr I) as (i & E). apply TRI in IN. destruct IN as (s & t & S & T & EQ). exists i, s, t. split; [rewrite <- LT; apply nth_error_Some; congruence|]. split; [exact S|]. split; [exact T|]. unfold Poly_FastRandomPointInside. rewrite E. cbn [option_map]. now rewrite EQ.
  - intros f F. assert (NE : forall a b, In (a, b) (polygon_edges qs) -> a <> b).
    { intros a b I ->. assert (IN : forall v, In v qs -> v = b). { intros v IV. destruct (Req_dec (x2 v) (x2 b)) as [E1|N1]; [destruct (Req_dec (y2 v) (y2 b)) as [E2|N2]; [destruct v, b; cbn in *; congruence|]|];
        (assert (NV : v <> b) by congruence; pose proof (strict_edge qs b b v CCW I IV NV NV) as T; unfold turn, area2, mi in T; cbn in T; lra). }
      destruct CCW as (ND & _). inversion ND as [|? ? NI _]. apply NI. rewrite (IN q0 ltac:(now left)), (IN q1 ltac:(right; now left)). now left. }
    destruct (C92_point_on_edge o U V q0 q1 rest f FR F NE) as (l1 & a & b & l2 & k & EL & K & P & _). exists a, b, k. split; [|split; [exact K|exact P]]. apply edges_rot_in. fold qs in EL. rewrite EL. apply in_or_app. right. now left.
Qed.
Print Assumptions C109_polygon.
