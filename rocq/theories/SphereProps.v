(** C44: sphere queries. *)
From Coq Require Import Reals Lra Psatz Bool List.
From Verif Require Import Num NumR ScalarModel ScalarProofs Vec3Model GeoTypes GeoSpec GeoLemmas AabbModel AabbSpec LineModel LineSpec
  LineProofs LineProps MatModel MatProofs RotModel PlaneModel PlaneSpec PlaneProps PlaneProps2 PlaneProps4 Vec3Props SphereModel SphereSpec.
Import ListNotations.
Open Scope R_scope.

Lemma sq_dist a b : DistanceSq a b = dist a b * dist a b.
Proof. rewrite DistanceSq_R. unfold dist. now rewrite norm_sq. Qed.
Lemma dist_pos a b : 0 <= dist a b. Proof. apply norm_pos. Qed.
Lemma dist_le_sq a b r : 0 <= r -> (dist a b <= r <-> dist a b * dist a b <= r * r).
Proof. intros H. pose proof (dist_pos a b). split; intros; nra. Qed.
Lemma SContains_R (s : sphere R) p : 0 <= srad s -> (Sphere_Contains s p = true <-> in_sphere s p).
Proof. intros H. unfold Sphere_Contains, in_sphere. rsimpl. rewrite sq_dist, Rleb_true. now rewrite dist_le_sq. Qed.
Lemma convex_sphere (s : sphere R) : convex_set (in_sphere s).
Proof.
  intros x y k X Y K. unfold in_sphere in *.
  replace (dist (spos s) (plus x (scale k (minus y x)))) with (norm (plus (scale (1 - k) (minus (spos s) x)) (scale k (minus (spos s) y)))) by
    (unfold dist; f_equal; gunf; apply vec_ext; cbn [vx vy vz]; ring).
  eapply Rle_trans; [apply norm_triangle|]. rewrite !norm_scale, !Rabs_pos_eq by lra. unfold dist in X, Y. nra.
Qed.

Lemma interp a b x : a <= x <= b -> exists k, 0 <= k <= 1 /\ x = a + k * (b - a).
Proof.
  intros H. destruct (Req_dec a b) as [->|N]; [exists 0; split; lra|]. exists ((x - a) / (b - a)). split; [|field; lra].
  split; [apply Rmult_le_pos; [lra|left; apply Rinv_0_lt_compat; lra]|]. apply (Rmult_le_reg_r (b - a)); [lra|]. unfold Rdiv. rewrite Rmult_assoc, Rinv_l by lra. lra.
Qed.
(** A box is the hull of its corners. *)
Lemma box_hull (A : pt -> Prop) (b : aabb R) p : convex_set A -> (forall i, (i < 8)%nat -> A (AABB_CornerPoint b i)) -> in_box b p -> A p.
Proof.
  intros CV H (X & Y & Z). destruct b as [[a1 a2 a3] [b1 b2 b3]], p as [x y z]. cbn [minPoint maxPoint vx vy vz] in *.
  apply interp in X, Y, Z. destruct X as (i & I & ->), Y as (j & J & ->), Z as (k & K & ->).
  assert (C : forall n, (n < 8)%nat -> A (AABB_CornerPoint (Box (V3 a1 a2 a3) (V3 b1 b2 b3)) n)) by auto.
  pose proof (C 0%nat ltac:(Lia.lia)) as C0; pose proof (C 1%nat ltac:(Lia.lia)) as C1; pose proof (C 2%nat ltac:(Lia.lia)) as C2; pose proof (C 3%nat ltac:(Lia.lia)) as C3.
  pose proof (C 4%nat ltac:(Lia.lia)) as C4; pose proof (C 5%nat ltac:(Lia.lia)) as C5; pose proof (C 6%nat ltac:(Lia.lia)) as C6; pose proof (C 7%nat ltac:(Lia.lia)) as C7.
  clear C H. cbn in C0, C1, C2, C3, C4, C5, C6, C7.
  pose proof (CV _ _ _ C0 C1 K) as D0. pose proof (CV _ _ _ C2 C3 K) as D1. pose proof (CV _ _ _ C4 C5 K) as D2. pose proof (CV _ _ _ C6 C7 K) as D3.
  pose proof (CV _ _ _ D0 D1 J) as E0. pose proof (CV _ _ _ D2 D3 J) as E1. pose proof (CV _ _ _ E0 E1 I) as F. clear - F.
  match goal with F : A ?u |- A ?v => replace v with u; [exact F|] end. gunf. apply vec_ext; cbn [vx vy vz]; ring.
Qed.
Lemma corner_in (b : aabb R) i : box_ok b -> (i < 8)%nat -> in_box b (AABB_CornerPoint b i).
Proof.
  intros (X & Y & Z) I. do 8 (destruct i as [|i]; [unfold in_box; cbn; repeat split; lra|]). Lia.lia.
Qed.

(** Points: the test is exact, and the epsilon enlarges the squared radius. *)
Theorem C44_contains_point (s : sphere R) (p : pt) (e : R) : 0 <= srad s -> 0 <= e ->
  (Sphere_Contains s p = true <-> in_sphere s p) /\
  (Sphere_ContainsEps s p e = true <-> dist (spos s) p <= sqrt (srad s * srad s + e)).
Proof.
  intros H He. split; [now apply SContains_R|]. unfold Sphere_ContainsEps. rsimpl. rewrite sq_dist, Rleb_true.
  pose proof (dist_pos (spos s) p). split; intros L.
  - rewrite <- (sqrt_Rsqr (dist (spos s) p)) by auto. apply sqrt_le_1_alt. unfold Rsqr. lra.
  - assert (0 <= srad s * srad s + e) by nra. pose proof (sqrt_sqrt _ H1). pose proof (sqrt_pos (srad s * srad s + e)). nra.
Qed.

(** Convex hull of a list of vertices: what every convex set containing them contains. *)
Theorem C44_contains_shapes (s : sphere R) (l : segment R) (t : triangle R) (b : aabb R) (vs : list pt) : 0 <= srad s -> box_ok b ->
  (Sphere_ContainsSeg s l = true <-> forall p, on_segment l p -> in_sphere s p) /\
  (Sphere_ContainsTri s t = true <-> forall p, in_triangle t p -> in_sphere s p) /\
  (Sphere_ContainsAABB s b = true <-> forall p, in_box b p -> in_sphere s p) /\
  (Sphere_ContainsPolygon s vs = true <-> forall p, in_hull vs p -> in_sphere s p).
Proof.
  intros H B. pose proof (convex_sphere s) as CV. split; [|split; [|split]].
  - unfold Sphere_ContainsSeg. rewrite andb_true_iff, !SContains_R by auto. split.
    + intros [A C] p (k & K & ->). apply (CV _ _ _ A C K).
    + intros A. split; apply A; [exists 0|exists 1]; split; try lra; gunf; apply vec_ext; cbn [vx vy vz]; ring.
  - unfold Sphere_ContainsTri. rewrite !andb_true_iff, !SContains_R by auto. split.
    + intros [[A C] D] p P. eapply tri_convex; eauto.
    + intros A. destruct (tri_corners t) as (X & Y & Z). auto.
  - unfold Sphere_ContainsAABB. rewrite forallb_forall. split.
    + intros A p P. apply (box_hull _ b p CV); [|exact P]. intros i I. apply SContains_R; auto. apply A. apply in_seq. simpl. Lia.lia.
    + intros A i I. apply in_seq in I. apply SContains_R; auto. apply A. apply corner_in; [exact B|Lia.lia].
  - unfold Sphere_ContainsPolygon. rewrite forallb_forall. split.
    + intros A p P. apply (P (in_sphere s)); auto. intros v V. apply SContains_R; auto.
    + intros A v V. apply SContains_R; auto. apply A. intros C _ G. now apply G.
Qed.
Print Assumptions C44_contains_shapes.
Example C44_contains_shapes_witness : 0 <= srad (Sph (V3 0 0 0) 2) /\ box_ok (Box (V3 0 0 0) (V3 1 1 1)) /\
  Sphere_ContainsAABB (Sph (V3 0 0 0) 2) (Box (V3 0 0 0) (V3 1 1 1)) = true /\ Sphere_ContainsAABB (Sph (V3 0 0 0) 1) (Box (V3 0 0 0) (V3 1 1 1)) = false.
Proof.
  unfold Sphere_ContainsAABB, Sphere_Contains, DistanceSq, box_ok. cbn [seq forallb AABB_CornerPoint spos srad minPoint maxPoint vx vy vz]. rsimpl.
  split; [lra|]. split; [lra|]. split.
  - repeat match goal with |- context [Rleb ?a ?b] => rewrite (proj2 (Rleb_true a b)) by lra end. reflexivity.
  - repeat match goal with |- context [Rleb ?a ?b] => first [rewrite (proj2 (Rleb_true a b)) by lra | rewrite (proj2 (Rleb_false a b)) by lra] end. reflexivity.
Qed.

(** A direction from a to b, also when they coincide. *)
Lemma direction a b : exists u, unitv u /\ minus b a = scale (dist a b) u.
Proof.
  destruct (pt_dec a b) as [->|N].
  - exists (V3 1 0 0). split; [gunf; lra|]. rewrite (proj2 (dist_zero b b) eq_refl). gunf. apply vec_ext; cbn [vx vy vz]; ring.
  - assert (P : dist a b <> 0) by (intros E; now apply dist_zero in E). exists (scale (/ dist a b) (minus b a)). split.
    + unfold unitv. rewrite dot_scale_l, dot_scale_r. replace (dot (minus b a) (minus b a)) with (dist a b * dist a b) by (unfold dist; rewrite norm_sq; gunf; ring). field. exact P.
    + gunf. apply vec_ext; cbn [vx vy vz]; field; exact P.
Qed.
(** The point of a ball farthest from a given point. *)
Lemma farthest a c r : 0 <= r -> exists p, dist c p = r /\ dist a p = dist a c + r.
Proof.
  intros H. destruct (direction a c) as (u & U & E). exists (plus c (scale r u)). split.
  - unfold dist. replace (minus c (plus c (scale r u))) with (scale (- r) u) by (gunf; apply vec_ext; cbn [vx vy vz]; ring).
    rewrite norm_scale, (unit_norm1 u U), Rabs_Ropp, Rabs_pos_eq; lra.
  - unfold dist at 1. replace (minus a (plus c (scale r u))) with (scale (-1) (plus (minus c a) (scale r u))) by (gunf; apply vec_ext; cbn [vx vy vz]; ring).
    rewrite E. replace (plus (scale (dist a c) u) (scale r u)) with (scale (dist a c + r) u) by (gunf; apply vec_ext; cbn [vx vy vz]; ring).
    pose proof (dist_pos a c). rewrite !norm_scale, (unit_norm1 u U), (Rabs_left (-1)), Rabs_pos_eq; lra.
Qed.
Lemma ball_within c r a x : 0 <= r -> (dist a c + r <= x <-> forall p, dist c p <= r -> dist a p <= x).
Proof.
  intros H. split.
  - intros L p P. pose proof (dist_triangle a c p). lra.
  - intros L. destruct (farthest a c r H) as (p & P & Q). rewrite <- Q. apply L. lra.
Qed.

Theorem C44_contains_balls (s o : sphere R) (c : capsule R) (e : R) : 0 <= srad o -> 0 <= cap_r c ->
  (Sphere_ContainsSphere s o = true <-> forall p, in_sphere o p -> in_sphere s p) /\
  (Sphere_ContainsSphereEps s o e = true <-> forall p, in_sphere o p -> dist (spos s) p <= srad s + e) /\
  (Sphere_ContainsCapsule s c = true <-> forall p, in_capsule c p -> in_sphere s p).
Proof.
  intros O C. unfold Sphere_ContainsSphere, Sphere_ContainsSphereEps, Sphere_ContainsCapsule. change (@Distance R Num_R) with dist. rsimpl.
  rewrite andb_true_iff, !Rleb_true. split; [apply ball_within, O|]. split.
  - etransitivity; [|apply (ball_within (spos o) (srad o) (spos s) (srad s + e) O)]. split; lra.
  - unfold in_capsule, in_sphere. split.
    + intros [A B] p (q & (k & K & ->) & D).
      pose proof (convex_sphere (Sph (spos s) (srad s - cap_r c)) (seg_a (cap_l c)) (seg_b (cap_l c)) k) as CV. unfold in_sphere in CV. cbn [spos srad] in CV.
      specialize (CV ltac:(lra) ltac:(lra) K). pose proof (dist_triangle (spos s) (plus (seg_a (cap_l c)) (scale k (minus (seg_b (cap_l c)) (seg_a (cap_l c))))) p). lra.
    + intros A. rewrite !(ball_within _ _ _ _ C). split; intros p P; apply A; [exists (seg_a (cap_l c))|exists (seg_b (cap_l c))]; (split; [|exact P]); [exists 0|exists 1]; split; try lra; gunf; apply vec_ext; cbn [vx vy vz]; ring.
Qed.
Print Assumptions C44_contains_balls.
Example C44_contains_balls_witness : 0 <= srad (Sph (V3 1 0 0) 2) /\ 0 <= cap_r (Cap (Seg (V3 1 0 0) (V3 2 0 0)) 1) /\ (forall p, in_sphere (Sph (V3 1 0 0) 2) p -> in_sphere (Sph (V3 0 0 0) 3) p).
Proof.
  split; [cbn; lra|]. split; [cbn; lra|]. apply (ball_within (V3 1 0 0) 2 (V3 0 0 0) 3); [lra|]. unfold dist, norm, minus, dot. cbn [vx vy vz].
  replace ((0 - 1) * (0 - 1) + (0 - 0) * (0 - 0) + (0 - 0) * (0 - 0)) with 1 by ring. rewrite sqrt_1. lra.
Qed.

(** Lines.  [gap] is how far (in squared distance) the point at parameter t is from the surface. *)
Lemma line_quad p d c t : unitv d -> dist c (along p d t) * dist c (along p d t) = t * t + 2 * dot (minus p c) d * t + dot (minus p c) (minus p c).
Proof. intros U. unfold unitv in U. unfold dist. rewrite norm_sq. gunf. nra. Qed.
Theorem C44_intersect_line (l : line R) (c : pt) (r : R) : unitv (ldir l) -> 0 <= r ->
  match Sphere_IntersectLine (lpos l) (ldir l) c r with
  | None => forall t, r < dist c (along (lpos l) (ldir l) t)
  | Some (n, t1, t2) =>
      (n = 2%nat /\ t1 < t2 /\ (forall t, dist c (along (lpos l) (ldir l) t) = r <-> (t = t1 \/ t = t2)) /\
        (forall t, dist c (along (lpos l) (ldir l) t) <= r <-> t1 <= t <= t2)) \/
      (n = 1%nat /\ t1 = t2 /\ dist c (along (lpos l) (ldir l) t1) <= r /\ r * r - dist c (along (lpos l) (ldir l) t1) * dist c (along (lpos l) (ldir l) t1) < 1 / 40000 /\
        (forall t, dist c (along (lpos l) (ldir l) t1) <= dist c (along (lpos l) (ldir l) t)))
  end.
Proof.
  intros U Hr. unfold Sphere_IntersectLine. toG. rewrite !nlit_R. rsimpl.
  pose proof (fun t => line_quad (lpos l) (ldir l) c t U) as Q. pose proof (fun t => dist_pos c (along (lpos l) (ldir l) t)) as P.
  set (b := dot (minus (lpos l) c) (ldir l)) in *. set (q := dot (minus (lpos l) c) (minus (lpos l) c)) in *.
  set (f := fun t => dist c (along (lpos l) (ldir l) t)) in *. change (forall t, f t * f t = t * t + 2 * b * t + q) in Q. change (forall t, 0 <= f t) in P.
  change (match (if Rltb (2 * b * (2 * b) - 4 / 1 * (q - r * r)) 0 then None else if Rltb (2 * b * (2 * b) - 4 / 1 * (q - r * r)) (1 / 10000) then Some (1%nat, - (2 * b) * (1 / 2), - (2 * b) * (1 / 2)) else
      Some (2%nat, (- (2 * b) - sqrt (2 * b * (2 * b) - 4 / 1 * (q - r * r))) * (1 / 2), (- (2 * b) + sqrt (2 * b * (2 * b) - 4 / 1 * (q - r * r))) * (1 / 2))) with
    | Some (n, t1, t2) => (n = 2%nat /\ t1 < t2 /\ (forall t, f t = r <-> (t = t1 \/ t = t2)) /\ (forall t, f t <= r <-> t1 <= t <= t2)) \/
        (n = 1%nat /\ t1 = t2 /\ f t1 <= r /\ r * r - f t1 * f t1 < 1 / 40000 /\ (forall t, f t1 <= f t))
    | None => forall t, r < f t end).
  clearbody f b q. clear U. set (D := 2 * b * (2 * b) - 4 / 1 * (q - r * r)) in *.
  assert (ED : D = 4 * (b * b - q + r * r)) by (unfold D; field). clearbody D.
  assert (LE : forall x y, 0 <= x -> 0 <= y -> (x <= y <-> x * x <= y * y)) by (intros; split; nra).
  destruct (Rltb_spec D 0) as [H|H].
  - intros t. pose proof (Q t). pose proof (P t). pose proof (Rle_0_sqr (t + b)). unfold Rsqr in *. apply Rnot_le_lt. intros L. apply LE in L; auto. nra.
  - destruct (Rltb_spec D (1 / 10000)) as [K|K].
    + right. set (t0 := - (2 * b) * (1 / 2)). assert (E0 : t0 = - b) by (unfold t0; field). clearbody t0. subst t0.
      pose proof (Q (- b)). repeat split; auto.
      * apply LE; auto. nra.
      * nra.
      * intros t. apply LE; auto. rewrite (Q t). pose proof (Rle_0_sqr (t + b)). unfold Rsqr in *. nra.
    + left. set (w := sqrt D). assert (W : w * w = D) by (apply sqrt_sqrt; lra). assert (0 < w) by (apply sqrt_lt_R0; lra). clearbody w.
      set (t1 := (- (2 * b) - w) * (1 / 2)). set (t2 := (- (2 * b) + w) * (1 / 2)).
      assert (E1 : 2 * t1 = - 2 * b - w) by (unfold t1; lra). assert (E2 : 2 * t2 = - 2 * b + w) by (unfold t2; lra). clearbody t1 t2.
      assert (FA : forall t, f t * f t - r * r = (t - t1) * (t - t2)).
      { intros t. rewrite Q. assert (t1 + t2 = - 2 * b) by lra. assert (4 * (t1 * t2) = 4 * (b * b) - w * w) by (replace (4 * (t1 * t2)) with ((2 * t1) * (2 * t2)) by ring; rewrite E1, E2; ring).
        replace ((t - t1) * (t - t2)) with (t * t - (t1 + t2) * t + t1 * t2) by ring. nra. }
      split; [reflexivity|]. split; [lra|]. split; intros t; specialize (FA t); pose proof (P t).
      * split; [intros E; rewrite E in FA; assert (Z : (t - t1) * (t - t2) = 0) by lra; apply Rmult_integral in Z; lra|]. intros E.
        assert (Z : (t - t1) * (t - t2) = 0) by (destruct E; subst; ring). rewrite Z in FA. nra.
      * rewrite LE by auto. split; [intros E|intros [E F]; nra]. assert (Z : (t - t1) * (t - t2) <= 0) by lra. split; apply Rnot_lt_le; intros C; nra.
Qed.
Print Assumptions C44_intersect_line.
Example C44_intersect_line_witness : unitv (ldir (Ln (V3 (-3) 0 0) (V3 1 0 0))) /\ 0 <= 1 /\ Sphere_IntersectLine (V3 (-3) 0 0) (V3 1 0 0) (V3 0 0 0) 1 = Some (2%nat, 2, 4).
Proof.
  split; [unfold unitv, dot; cbn; lra|]. split; [lra|]. unfold Sphere_IntersectLine. toG. rewrite !nlit_R. rsimpl. unfold dot, minus. cbn [vx vy vz].
  match goal with |- context [sqrt ?x] => replace x with (2 * 2) by field end. rewrite sqrt_square by lra.
  match goal with |- context [Rltb ?x 0] => replace x with 4 by field end. rewrite (proj2 (Rltb_false 4 0)) by lra. rewrite (proj2 (Rltb_false 4 (1 / 10000))) by lra.
  f_equal. f_equal; [f_equal|]; field.
Qed.

(** Lines: the parameters d, d2 are exactly the boundary points, and the reported point is the one at d. *)
Theorem C44_line (s : sphere R) (l : line R) : unitv (ldir l) -> 0 <= srad s ->
  match Sphere_IntersectsLine s l with
  | None => forall p, on_line l p -> ~ in_sphere s p
  | Some (n, h, d, d2) => h = along (lpos l) (ldir l) d /\ in_sphere s h /\
      ((n = 2%nat /\ d < d2 /\ forall t, on_surface s (along (lpos l) (ldir l) t) <-> (t = d \/ t = d2)) \/ (n = 1%nat /\ d = d2 /\ grazes s (lpos l) (ldir l)))
  end.
Proof.
  intros U Hr. pose proof (C44_intersect_line l (spos s) (srad s) U Hr) as H. unfold Sphere_IntersectsLine.
  destruct (Sphere_IntersectLine (lpos l) (ldir l) (spos s) (srad s)) as [[[n t1] t2]|].
  - split; [reflexivity|]. change (vadd (lpos l) (smulv t1 (ldir l))) with (along (lpos l) (ldir l) t1). unfold in_sphere.
    destruct H as [(-> & L & S & I)|(-> & E & A & B & C)].
    + split; [apply I; lra|]. left. auto.
    + split; [exact A|]. right. repeat split; auto. exists t1. auto.
  - intros p (t & ->). unfold in_sphere. specialize (H t). lra.
Qed.
Print Assumptions C44_line.

(** Rays: d is the first boundary point at or ahead of the origin.  The number returned is that of the line. *)
Theorem C44_ray (s : sphere R) (r : ray R) : unitv (rdir r) -> 0 <= srad s ->
  match Sphere_IntersectsRay s r with
  | None => (forall p, on_ray r p -> ~ on_surface s p) \/ grazes s (rpos r) (rdir r)
  | Some (n, h, d, d2) => 0 <= d /\ h = along (rpos r) (rdir r) d /\ in_sphere s h /\
      ((n = 2%nat /\ d <= d2 /\ forall t, 0 <= t -> (on_surface s (along (rpos r) (rdir r) t) <-> (t = d \/ t = d2))) \/ (n = 1%nat /\ d = d2 /\ grazes s (rpos r) (rdir r)))
  end.
Proof.
  intros U Hr. pose proof (C44_intersect_line (Ln (rpos r) (rdir r)) (spos s) (srad s) U Hr) as H. cbn [lpos ldir] in H. unfold Sphere_IntersectsRay.
  destruct (Sphere_IntersectLine (rpos r) (rdir r) (spos s) (srad s)) as [[[n t1] t2]|].
  - rsimpl. unfold in_sphere, on_surface.
    destruct H as [(-> & L & S & I)|(-> & E & A & B & C)].
    + cbn [Nat.eqb]. rewrite andb_true_r. destruct (Rltb_spec t1 0) as [N|N].
      * destruct (Rltb_spec t2 0) as [M|M].
        { left. intros p (t & T & ->) G. apply S in G. lra. }
        split; [lra|]. split; [reflexivity|]. change (vadd (rpos r) (smulv t2 (rdir r))) with (along (rpos r) (rdir r) t2). split; [apply I; lra|].
        left. split; [reflexivity|]. split; [lra|]. intros t T. rewrite S. split; [intros [|]; lra|intros [|]; lra].
      * rewrite (proj2 (Rltb_false t1 0)) by lra. split; [lra|]. split; [reflexivity|]. change (vadd (rpos r) (smulv t1 (rdir r))) with (along (rpos r) (rdir r) t1).
        split; [apply I; lra|]. left. split; [reflexivity|]. split; [lra|]. auto.
    + cbn [Nat.eqb]. rewrite andb_false_r. destruct (Rltb_spec t1 0) as [N|N].
      * right. exists t1. auto.
      * split; [lra|]. split; [reflexivity|]. split; [exact A|]. right. split; [reflexivity|]. split; [exact E|]. exists t1. auto.
  - left. intros p (t & _ & ->). unfold on_surface. specialize (H t). lra.
Qed.
Print Assumptions C44_ray.

Lemma inside_line : Sphere_IntersectLine (V3 0 0 0) (V3 1 0 0) (V3 0 0 0) 1 = Some (2%nat, -1, 1).
Proof.
  unfold Sphere_IntersectLine. toG. rewrite !nlit_R. rsimpl. unfold dot, minus. cbn [vx vy vz].
  match goal with |- context [sqrt ?x] => replace x with (2 * 2) by field end. rewrite sqrt_square by lra.
  match goal with |- context [Rltb ?x 0] => replace x with 4 by field end. rewrite (proj2 (Rltb_false 4 0)) by lra. rewrite (proj2 (Rltb_false 4 (1 / 10000))) by lra.
  f_equal. f_equal; [f_equal|]; field.
Qed.
(** From inside the ball there is one boundary point ahead, but two are reported. *)
Theorem C44_ray_count_refuted : exists (s : sphere R) (r : ray R), unitv (rdir r) /\ 0 < srad s /\
  (exists h d d2, Sphere_IntersectsRay s r = Some (2%nat, h, d, d2)) /\ (forall p q, on_ray r p -> on_ray r q -> on_surface s p -> on_surface s q -> p = q).
Proof.
  exists (Sph (V3 0 0 0) 1), (Ry (V3 0 0 0) (V3 1 0 0)). assert (U : unitv (V3 1 0 0)) by (unfold unitv, dot; cbn; lra). split; [exact U|]. split; [cbn; lra|].
  split.
  - unfold Sphere_IntersectsRay. cbn [rpos rdir spos srad]. rewrite inside_line. rsimpl. cbn [Nat.eqb]. rewrite (proj2 (Rltb_true (-1) 0)) by lra. cbn [andb].
    rewrite (proj2 (Rltb_false 1 0)) by lra. eauto.
  - intros p q (t & T & ->) (u & V & ->). unfold on_surface. cbn [spos srad rpos rdir]. intros A B.
    pose proof (line_quad (V3 0 0 0) (V3 1 0 0) (V3 0 0 0) t U) as X. pose proof (line_quad (V3 0 0 0) (V3 1 0 0) (V3 0 0 0) u U) as Y. rewrite A in X. rewrite B in Y.
    unfold dot, minus in X, Y. cbn [vx vy vz] in X, Y. replace t with u by nra. reflexivity.
Qed.
Print Assumptions C44_ray_count_refuted.
Example C44_ray_witness : unitv (rdir (Ry (V3 0 0 0) (V3 1 0 0))) /\ 0 <= srad (Sph (V3 0 0 0) 1) /\ Sphere_IntersectsRay (Sph (V3 0 0 0) 1) (Ry (V3 0 0 0) (V3 1 0 0)) <> None.
Proof.
  split; [unfold unitv, dot; cbn; lra|]. split; [cbn; lra|]. unfold Sphere_IntersectsRay. cbn [rpos rdir spos srad]. rewrite inside_line. rsimpl. cbn [Nat.eqb].
  rewrite (proj2 (Rltb_true (-1) 0)) by lra. cbn [andb]. rewrite (proj2 (Rltb_false 1 0)) by lra. discriminate.
Qed.

(** Segments: the solid ball is tested; d and d2 are the boundary points of the whole line, as fractions of the segment. *)
Lemma seg_point (l : segment R) t : 0 < dist (seg_a l) (seg_b l) -> Seg_GetPoint l (t / dist (seg_a l) (seg_b l)) = along (seg_a l) (scale (/ dist (seg_a l) (seg_b l)) (minus (seg_b l) (seg_a l))) t.
Proof. intros H. unfold Seg_GetPoint. toG. rsimpl. unfold along, plus, scale, minus. cbn [vx vy vz]. apply vec_ext; cbn [vx vy vz]; field; lra. Qed.
Lemma seg_unit (l : segment R) : 0 < dist (seg_a l) (seg_b l) -> unitv (scale (/ dist (seg_a l) (seg_b l)) (minus (seg_b l) (seg_a l))).
Proof.
  intros H. unfold unitv. rewrite dot_scale_l, dot_scale_r. replace (dot (minus (seg_b l) (seg_a l)) (minus (seg_b l) (seg_a l))) with (dist (seg_a l) (seg_b l) * dist (seg_a l) (seg_b l)) by (unfold dist; rewrite norm_sq; gunf; ring).
  field. lra.
Qed.
Lemma seg_params (l : segment R) p : 0 < dist (seg_a l) (seg_b l) ->
  (on_segment l p <-> exists t, 0 <= t <= dist (seg_a l) (seg_b l) /\ p = along (seg_a l) (scale (/ dist (seg_a l) (seg_b l)) (minus (seg_b l) (seg_a l))) t).
Proof.
  intros H. set (L := dist (seg_a l) (seg_b l)) in *. split.
  - intros (k & K & ->). exists (k * L). split; [split; nra|]. unfold along. clearbody L. gunf. apply vec_ext; cbn [vx vy vz]; field; lra.
  - intros (t & K & ->). exists (t / L). split.
    + split; [apply Rmult_le_pos; [lra|left; apply Rinv_0_lt_compat, H]|]. apply (Rmult_le_reg_r L); [exact H|]. unfold Rdiv. rewrite Rmult_assoc, Rinv_l by lra. lra.
    + unfold along. clearbody L. gunf. apply vec_ext; cbn [vx vy vz]; field; lra.
Qed.
Theorem C44_segment (s : sphere R) (l : segment R) : eps6 < dist (seg_a l) (seg_b l) -> 0 <= srad s ->
  match Sphere_IntersectsSeg s l with
  | None => (forall p, on_segment l p -> ~ in_sphere s p) \/ grazes s (seg_a l) (Seg_Dir l)
  | Some (n, h, d, d2) => (exists p, on_segment l p /\ in_sphere s p) /\ h = along (seg_a l) (minus (seg_b l) (seg_a l)) d /\ d <= 1 /\ 0 <= d2 /\
      ((n = 2%nat /\ d < d2 /\ forall t, on_surface s (along (seg_a l) (minus (seg_b l) (seg_a l)) t) <-> (t = d \/ t = d2)) \/ (n = 1%nat /\ d = d2 /\ grazes s (seg_a l) (Seg_Dir l)))
  end.
Proof.
  intros G Hr. assert (E6 : 0 < eps6) by (unfold eps6; lra). assert (G0 : 0 < dist (seg_a l) (seg_b l)) by lra.
  unfold Sphere_IntersectsSeg. rewrite (Seg_Dir_R l G). set (u := scale (/ dist (seg_a l) (seg_b l)) (minus (seg_b l) (seg_a l))) in *.
  pose proof (C44_intersect_line (Ln (seg_a l) u) (spos s) (srad s) (seg_unit l G0) Hr) as H. cbn [lpos ldir] in H.
  change (Seg_Length l) with (dist (seg_a l) (seg_b l)).
  destruct (Sphere_IntersectLine (seg_a l) u (spos s) (srad s)) as [[[n t1] t2]|].
  - rsimpl. pose proof (fun p => seg_params l p G0) as SP. fold u in SP. set (L := dist (seg_a l) (seg_b l)) in *.
    assert (IL : 0 < / L) by (apply Rinv_0_lt_compat, G0).
    assert (AL : forall t, along (seg_a l) (minus (seg_b l) (seg_a l)) t = along (seg_a l) u (t * L)).
    { intros t. unfold u. unfold along. clearbody L. gunf. apply vec_ext; cbn [vx vy vz]; field; lra. }
    destruct (Rltb_spec t2 0) as [N|N]; cbn [orb].
    + destruct H as [(-> & LT & S & I)|(-> & E & A & B & C)]; [left|right; exists t1; auto]. intros p P. apply SP in P. destruct P as (t & T & ->). unfold in_sphere. rewrite I. lra.
    + destruct (Rltb_spec L t1) as [M|M].
      * destruct H as [(-> & LT & S & I)|(-> & E & A & B & C)]; [left|right; exists t1; auto]. intros p P. apply SP in P. destruct P as (t & T & ->). unfold in_sphere. rewrite I. lra.
      * split; [|split; [|split; [|split]]].
        { destruct H as [(-> & LT & S & I)|(-> & E & A & B & C)].
          - exists (along (seg_a l) u (Rmax 0 t1)). split; [apply SP; exists (Rmax 0 t1); split; [|reflexivity]|unfold in_sphere; apply I]; unfold Rmax; destruct (Rle_dec 0 t1); lra.
          - exists (along (seg_a l) u t1). split; [apply SP; exists t1; split; [lra|reflexivity]|exact A]. }
        { rewrite AL. replace (t1 / L * L) with t1 by (field; lra). apply (seg_point l t1 G0). }
        { apply (Rmult_le_reg_r L); [exact G0|]. unfold Rdiv. rewrite Rmult_assoc, Rinv_l by lra. lra. }
        { apply Rmult_le_pos; lra. }
        destruct H as [(-> & LT & S & I)|(-> & E & A & B & C)].
        { left. split; [reflexivity|]. split; [unfold Rdiv; nra|]. intros t. rewrite AL. unfold on_surface. rewrite S. split; intros [X|X]; [left|right|left|right]; try (rewrite <- X; field; lra); rewrite X; field; lra. }
        { right. split; [reflexivity|]. split; [now rewrite E|]. exists t1. auto. }
  - left. intros p P. apply (seg_params l p G0) in P. destruct P as (t & T & ->). unfold in_sphere. fold u. specialize (H t). lra.
Qed.
Print Assumptions C44_segment.
(** A segment inside the ball is reported as hitting it in a point outside the segment. *)
Theorem C44_segment_point_refuted : exists (s : sphere R) (l : segment R), eps6 < dist (seg_a l) (seg_b l) /\ 0 < srad s /\
  exists n h d d2, Sphere_IntersectsSeg s l = Some (n, h, d, d2) /\ ~ on_segment l h.
Proof.
  exists (Sph (V3 0 0 0) 1), (Seg (V3 0 0 0) (V3 (1/2) 0 0)).
  assert (D : dist (V3 0 0 0) (V3 (1/2) 0 0) = 1/2).
  { unfold dist, norm, minus, dot. cbn [vx vy vz]. match goal with |- sqrt ?x = _ => replace x with ((1/2) * (1/2)) by field end. apply sqrt_square. lra. }
  assert (G : eps6 < dist (seg_a (Seg (V3 0 0 0) (V3 (1/2) 0 0))) (seg_b (Seg (V3 0 0 0) (V3 (1/2) 0 0)))) by (cbn [seg_a seg_b]; rewrite D; unfold eps6; lra).
  split; [exact G|]. split; [cbn; lra|]. unfold Sphere_IntersectsSeg. rewrite (Seg_Dir_R _ G). cbn [seg_a seg_b spos srad] in *.
  replace (scale (/ dist (V3 0 0 0) (V3 (1/2) 0 0)) (minus (V3 (1/2) 0 0) (V3 0 0 0))) with (V3 1 0 0) by (rewrite D; unfold scale, minus; cbn [vx vy vz]; apply vec_ext; cbn [vx vy vz]; field).
  rewrite inside_line. change (Seg_Length (Seg (V3 0 0 0) (V3 (1/2) 0 0))) with (dist (V3 0 0 0) (V3 (1/2) 0 0)). rewrite D. rsimpl.
  rewrite (proj2 (Rltb_false 1 0)) by lra. rewrite (proj2 (Rltb_false (1/2) (-1))) by lra. cbn [orb]. do 4 eexists. split; [reflexivity|].
  intros (k & K & E). apply (f_equal vx) in E. unfold Seg_GetPoint in E. toG. rsimpl. unfold plus, scale, minus in E. cbn [vx vy vz seg_a seg_b] in E. lra.
Qed.
Print Assumptions C44_segment_point_refuted.
Example C44_segment_witness : eps6 < dist (V3 0 0 0) (V3 1 0 0).
Proof.
  unfold dist, norm, minus, dot. cbn [vx vy vz]. match goal with |- _ < sqrt ?x => replace x with 1 by field end. rewrite sqrt_1. unfold eps6. lra.
Qed.
