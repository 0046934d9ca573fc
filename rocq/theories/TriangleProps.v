(** C46-C48: barycentric coordinates, the point of a triangle nearest a point, line/triangle intersection. *)
From Coq Require Import Reals Lra Psatz Bool List.
From Verif Require Import Num NumR ScalarModel ScalarProofs Vec3Model Vec2Model GeoTypes MatModel GMatProofs GeoSpec GeoLemmas Vec3Props AabbSpec LineModel LineSpec LineProofs LineProofs2 LineProps
  MatSpec MatProofs MatProofs2 PlaneModel PlaneSpec PlaneProps PlaneProps2 PlaneProps3 TriangleModel TriangleSpec.
Import ListNotations.
Open Scope R_scope.

Definition nrm (t : triangle R) : pt := cross (minus (tri_b t) (tri_a t)) (minus (tri_c t) (tri_a t)).
Lemma proper_nrm t : proper_tri t <-> nrm t <> origin.
Proof.
  destruct t as [a b c]. unfold proper_tri, nrm. cbn [tri_a tri_b tri_c]. generalize (minus b a) as x; generalize (minus c a) as y. clear a b c. intros y x. split.
  - intros H E. destruct (H (- dot x y) (dot x x)) as [_ H2].
    + transitivity (scale (-1) (cross x (cross x y))); [apply vec_ext; unfold cross; gunf; ring|]. rewrite E. apply vec_ext; unfold cross, origin; gunf; ring.
    + apply dot_zero in H2. destruct (H 1 0) as [H1 _]; [|lra]. rewrite H2. apply vec_ext; gunf; ring.
  - intros H u v E.
    assert (Ev : scale v (cross x y) = origin).
    { transitivity (cross x (plus (scale u x) (scale v y))); [apply vec_ext; unfold cross; gunf; ring|]. rewrite E. apply vec_ext; unfold cross, origin; gunf; ring. }
    assert (Eu : scale u (cross x y) = origin).
    { transitivity (cross (plus (scale u x) (scale v y)) y); [apply vec_ext; unfold cross; gunf; ring|]. rewrite E. apply vec_ext; unfold cross, origin; gunf; ring. }
    assert (Z : forall k, scale k (cross x y) = origin -> k = 0).
    { intros k K. destruct (Req_dec k 0) as [|N]; [easy|]. contradict H. transitivity (scale (/ k) (scale k (cross x y))); [apply vec_ext; gunf; field; easy|]. rewrite K. apply vec_ext; gunf; ring. }
    split; now apply Z.
Qed.
Lemma nrm_pos t : proper_tri t -> 0 < dot (nrm t) (nrm t).
Proof. intros P. destruct (dot_pos (nrm t)) as [|E]; [easy|]. symmetry in E. apply dot_zero in E. now apply proper_nrm in P. Qed.

(** Barycentric coordinates: the model's choice of projection plane. *)
Lemma bary_plus t u v : bary t (1 - u - v) u v = plus (tri_a t) (plus (scale u (minus (tri_b t) (tri_a t))) (scale v (minus (tri_c t) (tri_a t)))).
Proof. apply vec_ext; unfold bary; gunf; ring. Qed.
Lemma bary_nrm t u v w : u + v + w = 1 -> dot (nrm t) (bary t u v w) = dot (nrm t) (tri_a t).
Proof. intros E. replace u with (1 - v - w) by lra. unfold nrm, bary, cross; gunf; ring. Qed.

Theorem C46_barycentric (t : triangle R) (u v w : R) : proper_tri t -> u + v + w = 1 -> Tri_BarycentricUVW t (bary t u v w) = V3 u v w.
Proof.
  intros P E. apply proper_nrm in P. assert (Ew : w = 1 - u - v) by lra. subst w. clear E.
  destruct t as [[ax ay az] [bx by_ bz] [cx cy cz]]. unfold Tri_BarycentricUVW, nrm, bary in *. revert P. vunf. unfold cross. gunf. cbn [tri_a tri_b tri_c vx vy vz].
  rewrite !Abs_R. unfold TriArea2D. rsimpl.
  set (mx := (by_ - ay) * (cz - az) - (bz - az) * (cy - ay)). set (my := (bz - az) * (cx - ax) - (bx - ax) * (cz - az)). set (mz := (bx - ax) * (cy - ay) - (by_ - ay) * (cx - ax)).
  intros P.
  assert (D : forall a b c : R, Rabs b <= Rabs a -> Rabs c <= Rabs a -> a = 0 -> b = 0 /\ c = 0).
  { intros a0 b0 c0 H1 H2 Z. rewrite Z, Rabs_R0 in *. split; [revert H1|revert H2]; unfold Rabs; destruct Rcase_abs; lra. }
  destruct (Rleb_spec (Rabs my) (Rabs mx)) as [H1|H1]; cbn [andb]; [destruct (Rleb_spec (Rabs mz) (Rabs mx)) as [H2|H2]; cbn [andb]|].
  - assert (N : mx <> 0) by (intros Z; destruct (D mx my mz H1 H2 Z) as [-> ->]; apply P; now rewrite Z).
    assert (A : forall k, k = u * mx -> k * (1 / mx) = u) by (intros k ->; field; easy).
    assert (B : forall k, k = v * mx -> k * (1 / mx) = v) by (intros k ->; field; easy).
    rewrite A, B; [f_equal; ring|unfold mx; ring|unfold mx; ring].
  - destruct (Rleb_spec (Rabs mz) (Rabs my)) as [H3|H3]; [exfalso; lra|].
    assert (N : mz <> 0) by (intros Z; rewrite Z, Rabs_R0 in *; pose proof (Rabs_pos my); pose proof (Rabs_pos mx); lra).
    rewrite (Rmult_comm _ (1 / mz)), (Rmult_comm _ (1 / mz)).
    assert (A : forall k, k = u * mz -> 1 / mz * k = u) by (intros k ->; field; easy).
    assert (B : forall k, k = v * mz -> 1 / mz * k = v) by (intros k ->; field; easy).
    rewrite A, B; [f_equal; ring|unfold mz; ring|unfold mz; ring].
  - destruct (Rleb_spec (Rabs mz) (Rabs my)) as [H3|H3].
    + assert (N : my <> 0) by (intros Z; rewrite Z, Rabs_R0 in *; pose proof (Rabs_pos mx); lra).
      assert (A : forall k, k = - u * my -> k * (1 / - my) = u) by (intros k ->; field; easy).
      assert (B : forall k, k = - v * my -> k * (1 / - my) = v) by (intros k ->; field; easy).
      rewrite A, B; [f_equal; ring|unfold my; ring|unfold my; ring].
    + assert (N : mz <> 0) by (intros Z; rewrite Z, Rabs_R0 in *; pose proof (Rabs_pos my); lra).
      assert (A : forall k, k = u * mz -> k * (1 / mz) = u) by (intros k ->; field; easy).
      assert (B : forall k, k = v * mz -> k * (1 / mz) = v) by (intros k ->; field; easy).
      rewrite A, B; [f_equal; ring|unfold mz; ring|unfold mz; ring].
Qed.

Definition w_tri : triangle R := Tri (V3 1 2 3) (V3 5 2 3) (V3 1 8 4).
Lemma w_tri_proper : proper_tri w_tri.
Proof. apply proper_nrm. unfold nrm, w_tri, cross, origin; gunf. intros E. apply (f_equal vz) in E. cbn in E. lra. Qed.
Example C46_barycentric_witness : proper_tri w_tri /\ 1 / 2 + 1 / 4 + 1 / 4 = 1 /\ Tri_BarycentricUVW w_tri (V3 2 (7 / 2) (13 / 4)) = V3 (1 / 2) (1 / 4) (1 / 4).
Proof.
  split; [apply w_tri_proper|]. split; [lra|]. replace (V3 2 (7 / 2) (13 / 4)) with (bary w_tri (1 / 2) (1 / 4) (1 / 4)) by (apply vec_ext; unfold bary, w_tri; gunf; cbn; field).
  apply C46_barycentric; [apply w_tri_proper|lra].
Qed.

(** Points off the plane are first moved along the coordinate axis closest to the normal. *)
Lemma main_axis_unique n e f : main_axis n e -> main_axis n f -> e = f.
Proof. intros [(A & B)|[(A & B)|(A & B)]] [(C & D)|[(C & D)|(C & D)]]; subst; easy || (exfalso; lra). Qed.
Lemma UVW_shift t : exists e, main_axis (nrm t) e /\ forall p k, Tri_BarycentricUVW t (plus p (scale k e)) = Tri_BarycentricUVW t p.
Proof.
  destruct t as [a b c]. unfold Tri_BarycentricUVW. change (Cross (vsub b a) (vsub c a)) with (nrm (Tri a b c)). set (n := nrm (Tri a b c)). clearbody n. rewrite !Abs_R. rsimpl.
  destruct (Rleb_spec (Rabs (vy n)) (Rabs (vx n))) as [H1|H1]; cbn [andb]; [destruct (Rleb_spec (Rabs (vz n)) (Rabs (vx n))) as [H2|H2]; cbn [andb]|].
  - exists (V3 1 0 0). split; [now left|].
    intros p k. unfold plus, scale. cbn [vx vy vz]. replace (vy p + k * 0) with (vy p) by ring. replace (vz p + k * 0) with (vz p) by ring. easy.
  - destruct (Rleb_spec (Rabs (vz n)) (Rabs (vy n))) as [H3|H3]; [exfalso; lra|].
    exists (V3 0 0 1). split; [now right; right|].
    intros p k. unfold plus, scale. cbn [vx vy vz]. replace (vy p + k * 0) with (vy p) by ring. replace (vx p + k * 0) with (vx p) by ring. easy.
  - destruct (Rleb_spec (Rabs (vz n)) (Rabs (vy n))) as [H3|H3].
    + exists (V3 0 1 0). split; [now right; left|].
      intros p k. unfold plus, scale. cbn [vx vy vz]. replace (vz p + k * 0) with (vz p) by ring. replace (vx p + k * 0) with (vx p) by ring. easy.
    + exists (V3 0 0 1). split; [right; right; split; [easy|lra]|].
      intros p k. unfold plus, scale. cbn [vx vy vz]. replace (vy p + k * 0) with (vy p) by ring. replace (vx p + k * 0) with (vx p) by ring. easy.
Qed.
Lemma main_axis_nonzero n e : n <> origin -> main_axis n e -> dot n e <> 0.
Proof.
  intros N D Z. apply N. assert (A0 : forall x, Rabs x <= 0 -> x = 0) by (intros x; unfold Rabs; destruct Rcase_abs; lra).
  destruct D as [(-> & A & B)|[(-> & A & B)|(-> & A & B)]].
  - assert (X : vx n = 0) by (revert Z; gunf; lra). rewrite X, Rabs_R0 in *. apply A0 in A. apply A0 in B. now apply vec_ext.
  - assert (X : vy n = 0) by (revert Z; gunf; lra). rewrite X, Rabs_R0 in *. apply Rlt_le, A0 in A. apply A0 in B. now apply vec_ext.
  - assert (X : vz n = 0) by (revert Z; gunf; lra). rewrite X, Rabs_R0 in *. apply Rlt_le, A0 in A. apply Rlt_le, A0 in B. now apply vec_ext.
Qed.
(** A point whose height over the plane vanishes is a combination of the corners. *)
Lemma plane_bary t p : proper_tri t -> dot (nrm t) p = dot (nrm t) (tri_a t) -> in_tri_plane t p.
Proof.
  intros P E. pose proof (nrm_pos t P) as N. set (x := minus (tri_b t) (tri_a t)). set (y := minus (tri_c t) (tri_a t)). set (q := minus p (tri_a t)).
  assert (Q : dot (nrm t) q = 0) by (unfold q; rewrite dot_minus_r; lra).
  set (k := dot (nrm t) (nrm t)) in *. set (u := dot (nrm t) (cross q y) / k). set (v := dot (nrm t) (cross x q) / k).
  exists (1 - u - v), u, v. split; [ring|]. rewrite bary_plus. fold x y.
  assert (Hq : q = plus (scale u x) (scale v y)).
  { assert (W : scale k q = plus (scale (dot (nrm t) (cross q y)) x) (scale (dot (nrm t) (cross x q)) y)).
    { assert (G : plus (scale k q) (scale (- dot (nrm t) q) (nrm t)) = plus (scale (dot (nrm t) (cross q y)) x) (scale (dot (nrm t) (cross x q)) y)).
      { unfold k, nrm. fold x y. apply vec_ext; unfold cross; gunf; ring. }
      rewrite Q in G. rewrite <- G. apply vec_ext; gunf; ring. }
    transitivity (scale (/ k) (scale k q)); [apply vec_ext; gunf; field; lra|]. rewrite W. unfold u, v. apply vec_ext; gunf; field; lra. }
  rewrite <- Hq. unfold q. apply vec_ext; gunf; ring.
Qed.
Theorem C46_any_point (t : triangle R) (p : pt) : proper_tri t -> let '(V3 u v w) := Tri_BarycentricUVW t p in
  u + v + w = 1 /\ (in_tri_plane t p <-> bary t u v w = p) /\ exists e k, main_axis (nrm t) e /\ p = plus (bary t u v w) (scale k e) /\ k * dot (nrm t) e = dot (nrm t) (minus p (tri_a t)).
Proof.
  intros P. destruct (UVW_shift t) as (e & D & S). pose proof (main_axis_nonzero _ _ (proj1 (proper_nrm t) P) D) as Ne.
  set (k := dot (nrm t) (minus p (tri_a t)) / dot (nrm t) e). set (p' := plus p (scale (- k) e)).
  assert (B : in_tri_plane t p').
  { apply plane_bary; [easy|]. unfold p'. rewrite dot_plus_r, dot_scale_r. unfold k. rewrite dot_minus_r. field. easy. }
  destruct B as (u & v & w & E & B). rewrite <- (S p (- k)). fold p'. rewrite B, C46_barycentric by easy.
  assert (K : p = plus (bary t u v w) (scale k e)) by (rewrite <- B; unfold p'; apply vec_ext; gunf; ring).
  split; [easy|]. split; [|exists e, k; split; [easy|split; [easy|unfold k; field; easy]]].
  split; [|intros <-; now exists u, v, w]. intros (u' & v' & w' & E' & ->). rewrite <- B. unfold p'.
  replace k with 0; [apply vec_ext; gunf; ring|]. unfold k. rewrite dot_minus_r, bary_nrm by easy. field. easy.
Qed.

(** Point, the 2D coordinates, and the inside test. *)
Theorem C46_point (t : triangle R) (u v w : R) :
  Tri_Point t u v = bary t (1 - u - v) u v /\ Tri_Point3 t u v w = bary t u v w /\
  (proper_tri t -> Tri_BarycentricUV t (Tri_Point t u v) = V2 u v /\ forall p, in_tri_plane t p -> Tri_Point t (x2 (Tri_BarycentricUV t p)) (y2 (Tri_BarycentricUV t p)) = p).
Proof.
  assert (H : forall a b, Tri_Point t a b = bary t (1 - a - b) a b) by (intros; apply vec_ext; unfold bary, Tri_Point; vunf; gunf; rsimpl; ring).
  split; [apply H|]. split; [apply vec_ext; unfold bary, Tri_Point3; vunf; gunf; rsimpl; ring|].
  intros P. split.
  - rewrite H. unfold Tri_BarycentricUV. rewrite C46_barycentric by (easy || ring). reflexivity.
  - intros p (a & b & c & E & ->). unfold Tri_BarycentricUV. rewrite C46_barycentric by easy. cbv zeta. cbn [x2 y2 vy vz]. rewrite H. replace (1 - b - c) with a by lra. reflexivity.
Qed.
Theorem C46_inside (t : triangle R) (p : pt) : proper_tri t -> in_tri_plane t p -> (Tri_BarycentricInside (Tri_BarycentricUVW t p) = true <-> in_triangle t p).
Proof.
  intros P (u & v & w & E & ->). rewrite C46_barycentric by easy. unfold Tri_BarycentricInside. cbn [vx vy vz]. unfold EqualAbs. rewrite Abs_R. rsimpl. rewrite E.
  replace (1 - 1) with 0 by ring. rewrite Rabs_R0. rewrite (proj2 (Rltb_true 0 (1 / 1000))) by lra. rewrite andb_true_r, !andb_true_iff, !Rleb_true. split.
  - intros [[A B] C]. exists u, v, w. repeat split; easy.
  - intros (u' & v' & w' & A & B & C & E' & Q). fold (bary t u' v' w') in Q.
    assert (K : V3 u v w = V3 u' v' w') by (rewrite <- (C46_barycentric t u v w), <- (C46_barycentric t u' v' w') by easy; now rewrite Q). injection K as -> -> ->. easy.
Qed.

(** Contains: height over the plane within the thickness, coordinates at least -1e-3. *)
Lemma dot_nrm_b t p : dot (nrm t) (minus (tri_b t) p) = - dot (nrm t) (minus p (tri_a t)).
Proof. unfold nrm, cross; gunf; ring. Qed.
Theorem C46_contains (t : triangle R) (p : pt) (th : R) : proper_tri t ->
  (in_triangle t p -> 0 <= th -> Tri_Contains t p th = true) /\
  (Tri_Contains t p th = true <->
    (exists q, dot (nrm t) (minus q (tri_a t)) = 0 /\ dist q p * dist q p <= th) /\ exists e k q, main_axis (nrm t) e /\ p = plus q (scale k e) /\ in_enlarged t (1 / 1000) q).
Proof.
  intros P. pose proof (nrm_pos t P) as N.
  assert (I : Tri_Contains t p th = true <->
    (exists q, dot (nrm t) (minus q (tri_a t)) = 0 /\ dist q p * dist q p <= th) /\ exists e k q, main_axis (nrm t) e /\ p = plus q (scale k e) /\ in_enlarged t (1 / 1000) q).
  { unfold Tri_Contains. change (Cross (vsub (tri_b t) (tri_a t)) (vsub (tri_c t) (tri_a t))) with (nrm t). cbv zeta. toR. change (@LengthSq R Num_R (nrm t)) with (dot (nrm t) (nrm t)).
    change (@Dot R Num_R (nrm t)) with (dot (nrm t)). rewrite dot_nrm_b. set (h := dot (nrm t) (minus p (tri_a t))). set (k2 := dot (nrm t) (nrm t)) in *.
    assert (A : Rltb (th * k2) (- h * - h) = false <-> exists q, dot (nrm t) (minus q (tri_a t)) = 0 /\ dist q p * dist q p <= th).
    { rewrite Rltb_false. split.
      - intros H. exists (plus p (scale (- (h / k2)) (nrm t))). split.
        + rewrite dot_minus_r, dot_plus_r, dot_scale_r. fold k2. unfold h. rewrite dot_minus_r. field. lra.
        + rewrite <- sqd_dist. unfold sqd. replace (minus (plus p (scale (- (h / k2)) (nrm t))) p) with (scale (- (h / k2)) (nrm t)) by (apply vec_ext; gunf; ring).
          rewrite dot_scale_l, dot_scale_r. fold k2. replace (- (h / k2) * (- (h / k2) * k2)) with (h * h / k2) by (field; lra). apply Rmult_le_reg_r with k2; [easy|]. unfold Rdiv. rewrite Rmult_assoc, Rinv_l by lra. lra.
      - intros (q & Q & H). rewrite <- sqd_dist in H. unfold sqd in H. pose proof (cauchy_sq (nrm t) (minus q p)) as C. fold k2 in C.
        replace (dot (nrm t) (minus q p)) with (- h) in C by (unfold h; revert Q; rewrite !dot_minus_r; lra). nra. }
    assert (B : Tri_ContainsBary t p = true <-> exists e k q, main_axis (nrm t) e /\ p = plus q (scale k e) /\ in_enlarged t (1 / 1000) q).
    { unfold Tri_ContainsBary. pose proof (C46_any_point t p P) as G. destruct (Tri_BarycentricUVW t p) as [u v w] eqn:Eb. cbn [vx vy vz]. rsimpl. rewrite !andb_true_iff, !Rleb_true.
      destruct G as (E & _ & e & k & D & Q & _). split.
      - intros [[H1 H2] H3]. exists e, k, (bary t u v w). split; [easy|]. split; [easy|]. exists u, v, w. repeat split; try easy; lra.
      - intros (e' & k' & q & D' & Q' & (u' & v' & w' & H1 & H2 & H3 & E' & Eq)). subst q.
        assert (e' = e) by (eapply main_axis_unique; eassumption). subst e'. destruct (UVW_shift t) as (e0 & D0 & S). assert (e0 = e) by (eapply main_axis_unique; eassumption). subst e0.
        rewrite Q', S, C46_barycentric in Eb by easy. injection Eb as -> -> ->. lra. }
    rewrite <- A, <- B. rsimpl. destruct (Rltb (th * k2) (- h * - h)); intuition congruence. }
  split; [|easy]. intros (u & v & w & A & B & C & E & Q) T. apply I. split.
  - exists p. split; [rewrite dot_minus_r; rewrite Q; fold (bary t u v w); rewrite bary_nrm by easy; ring|]. replace (dist p p) with 0 by (symmetry; now apply dist_zero). lra.
  - destruct (UVW_shift t) as (e & D & _). exists e, 0, p. split; [easy|]. split; [apply vec_ext; gunf; ring|]. exists u, v, w. repeat split; try easy; lra.
Qed.
Lemma UVW_affine t p q k : Tri_BarycentricUVW t (plus p (scale k (minus q p))) =
  plus (Tri_BarycentricUVW t p) (scale k (minus (Tri_BarycentricUVW t q) (Tri_BarycentricUVW t p))).
Proof.
  destruct t as [a b c]. unfold Tri_BarycentricUVW. set (n := Cross (vsub b a) (vsub c a)). clearbody n. unfold TriArea2D. rsimpl.
  destruct (Rleb (Abs (vy n)) (Abs (vx n)) && Rleb (Abs (vz n)) (Abs (vx n))); [|destruct (Rleb (Abs (vz n)) (Abs (vy n)))]; apply vec_ext; gunf; ring.
Qed.
Lemma contains_convex t th : convex_set (fun p => Tri_Contains t p th = true).
Proof.
  intros p q k H1 H2 K. unfold Tri_Contains, Tri_ContainsBary in *. cbv zeta in *. rewrite UVW_affine. set (n := Cross (vsub (tri_b t) (tri_a t)) (vsub (tri_c t) (tri_a t))) in *. clearbody n.
  set (U := Tri_BarycentricUVW t p) in *. set (V := Tri_BarycentricUVW t q) in *. clearbody U V.
  change (@Dot R Num_R) with dot in *. change (@vsub R Num_R) with minus in *. rsimpl.
  assert (E : dot n (minus (tri_b t) (plus p (scale k (minus q p)))) = (1 - k) * dot n (minus (tri_b t) p) + k * dot n (minus (tri_b t) q)) by (gunf; ring). rewrite E. clear E.
  set (x := dot n (minus (tri_b t) p)) in *. set (y := dot n (minus (tri_b t) q)) in *. set (L := th * LengthSq n) in *. clearbody x y L.
  destruct (Rltb_spec L (x * x)) as [|A]; [discriminate|]. destruct (Rltb_spec L (y * y)) as [|B]; [discriminate|].
  assert (C : ((1 - k) * x + k * y) * ((1 - k) * x + k * y) <= L).
  { pose proof (Rle_0_sqr (x - y)) as Q. unfold Rsqr in Q. assert (0 <= k * (1 - k)) by nra. assert (0 <= k * (1 - k) * ((x - y) * (x - y))) by (apply Rmult_le_pos; easy). nra. }
  rewrite (proj2 (Rltb_false _ _)) by lra. revert H1 H2. rewrite !andb_true_iff, !Rleb_true. unfold plus, scale, minus. cbn [vx vy vz].
  intros [[X1 Y1] Z1] [[X2 Y2] Z2].
  assert (G : forall a b m : R, m <= a -> m <= b -> m <= a + k * (b - a)) by (intros; nra).
  repeat split; apply G; lra.
Qed.
Theorem C46_contains_seg_tri (t o : triangle R) (s : segment R) (th : R) :
  (Tri_ContainsSeg t s th = true <-> forall p, on_segment s p -> Tri_Contains t p th = true) /\
  (Tri_ContainsTri t o th = true <-> forall p, in_triangle o p -> Tri_Contains t p th = true).
Proof.
  unfold Tri_ContainsSeg, Tri_ContainsTri. rewrite !andb_true_iff. split; split.
  - intros [A B] p (k & K & ->). now apply (contains_convex t th).
  - intros H. destruct (seg_ends s). split; now apply H.
  - intros [[A B] C] p (u & v & w & U & V & W & E & ->).
    destruct (Req_dec (u + v) 0) as [Z|N].
    + replace u with 0 by lra. replace v with 0 by lra. replace w with 1 by lra. replace (plus _ _) with (tri_c o); [easy|apply vec_ext; gunf; ring].
    + set (q := plus (tri_a o) (scale (v / (u + v)) (minus (tri_b o) (tri_a o)))).
      assert (Q : Tri_Contains t q th = true).
      { apply (contains_convex t th); try easy. assert (0 < / (u + v)) by (apply Rinv_0_lt_compat; lra). split; [apply Rmult_le_pos; lra|]. apply Rmult_le_reg_r with (u + v); [lra|]. unfold Rdiv. rewrite Rmult_assoc, Rinv_l by easy. lra. }
      replace (plus _ _) with (plus q (scale w (minus (tri_c o) q))); [apply (contains_convex t th); try easy; lra|].
      unfold q. assert (w = 1 - u - v) by lra. subst w. apply vec_ext; gunf; field; easy.
  - intros H. destruct (tri_corners o) as (A & B & C). repeat split; now apply H.
Qed.
Example C46_contains_witness : Tri_Contains w_tri (V3 2 (7 / 2) (13 / 4)) (1 / 100000) = true /\ Tri_ContainsTri w_tri w_tri (1 / 1000) = true.
Proof.
  assert (I : forall p th, in_triangle w_tri p -> 0 <= th -> Tri_Contains w_tri p th = true) by (intros p th; apply (C46_contains w_tri p th w_tri_proper)).
  split; [|apply (proj2 (C46_contains_seg_tri w_tri w_tri w_seg (1 / 1000))); intros p H; apply I; [easy|lra]].
  apply I; [|lra]. exists (1 / 2), (1 / 4), (1 / 4). repeat split; try lra. apply vec_ext; unfold w_tri; gunf; cbn; field.
Qed.

(** *** The nearest point of a triangle. *)
Lemma nearest_tri t p q : in_triangle t q -> dot (minus p q) (minus (tri_a t) q) <= 0 -> dot (minus p q) (minus (tri_b t) q) <= 0 -> dot (minus p q) (minus (tri_c t) q) <= 0 ->
  nearest (in_triangle t) p q.
Proof.
  intros I A B C. split; [easy|]. intros x (u & v & w & U & V & W & E & ->). apply dist_le. unfold sqd.
  assert (H : dot (minus p q) (minus (bary t u v w) q) <= 0).
  { replace (dot (minus p q) (minus (bary t u v w) q)) with (u * dot (minus p q) (minus (tri_a t) q) + v * dot (minus p q) (minus (tri_b t) q) + w * dot (minus p q) (minus (tri_c t) q))
      by (replace w with (1 - u - v) by lra; unfold bary; gunf; ring). nra. }
  fold (bary t u v w). set (x := bary t u v w) in *. pose proof (dot_pos (minus x q)) as D.
  replace (dot (minus x p) (minus x p)) with (dot (minus q p) (minus q p) + dot (minus x q) (minus x q) - 2 * dot (minus p q) (minus x q)) by (gunf; ring). lra.
Qed.
(** The regions around a triangle with Gram entries A, B, C cover the plane: where no vertex or edge region applies, all
    three barycentric numerators are non-negative. *)
Lemma face_region_c (A B C d1 d2 : R) : 0 < A -> 0 < C -> B * B < A * C ->
  ~ (d1 <= 0 /\ d2 <= 0) -> ~ (0 <= d1 - A /\ d2 - B <= d1 - A) -> ~ (A * d2 - B * d1 <= 0 /\ 0 <= d1 /\ d1 - A <= 0) ->
  ~ (0 <= d2 - C /\ d1 - B <= d2 - C) -> ~ (C * d1 - B * d2 <= 0 /\ 0 <= d2 /\ d2 - C <= 0) ->
  ~ ((d1 - A) * (d2 - C) - (d1 - B) * (d2 - B) <= 0 /\ 0 <= d2 - B - (d1 - A) /\ 0 <= d1 - B - (d2 - C)) ->
  0 <= A * d2 - B * d1.
Proof.
  intros HA HC HB H1 H2 H3 H4 H5 H6. apply Rnot_lt_le. intros N. destruct (Rlt_le_dec d1 0) as [L|L].
  - assert (D2 : 0 < d2) by lra. assert (Bn : B < 0) by nra.
    assert (VB : C * d1 - B * d2 < 0) by nra.
    destruct (Rle_lt_dec (d2 - C) 0) as [M|M]; [apply H5; lra|].
    assert (d2 - C < d1 - B) by lra. nra.
  - assert (D1 : 0 < d1 - A) by lra. assert (D3 : d1 - A < d2 - B) by lra. clear H1 H2 H3 H5.
    assert (BA : A < B) by nra.
    assert (VA : A * ((d1 - A) * (d2 - C) - (d1 - B) * (d2 - B)) <= 0).
    { set (x := d1 - A) in *. set (y := d2 - B) in *. replace (A * d2 - B * d1) with (A * y - B * x) in N by (unfold x, y; ring).
      replace (x * (d2 - C) - (d1 - B) * y) with (x * (B - C) + (B - A) * y) by (unfold x, y; ring).
      assert (A * (x * (B - C) + (B - A) * y) <= A * x * (B - C) + (B - A) * (B * x)) by nra. nra. }
    assert (VA' : (d1 - A) * (d2 - C) - (d1 - B) * (d2 - B) <= 0) by (revert VA HA; generalize ((d1 - A) * (d2 - C) - (d1 - B) * (d2 - B)); clear; intros; nra).
    destruct (Rlt_le_dec (d1 - B - (d2 - C)) 0) as [M|M]; [|apply H6; lra].
    assert (D6 : d2 - C < 0) by lra. nra.
Qed.
Lemma dual_cone (s w A e Z : R) : 0 < s -> 0 <= w -> 0 < A -> s * A + w * e < 0 -> s * e + w * Z < 0 -> e * e < A * Z -> False.
Proof.
  intros S W HA H1 H2 D. assert (SA : 0 < s * A) by nra. assert (WE : w * e < 0) by lra. assert (E : e < 0) by nra. assert (HZ : 0 < Z) by nra.
  assert (P1 : Z * (s * A + w * e) < 0) by nra. assert (P2 : - e * (s * e + w * Z) < 0) by nra. assert (P3 : s * (A * Z - e * e) < 0) by lra. nra.
Qed.
Lemma face_region (A B C d1 d2 : R) : 0 < A -> 0 < C -> B * B < A * C ->
  ~ (d1 <= 0 /\ d2 <= 0) -> ~ (0 <= d1 - A /\ d2 - B <= d1 - A) -> ~ (A * d2 - B * d1 <= 0 /\ 0 <= d1 /\ d1 - A <= 0) ->
  ~ (0 <= d2 - C /\ d1 - B <= d2 - C) -> ~ (C * d1 - B * d2 <= 0 /\ 0 <= d2 /\ d2 - C <= 0) ->
  ~ ((d1 - A) * (d2 - C) - (d1 - B) * (d2 - B) <= 0 /\ 0 <= d2 - B - (d1 - A) /\ 0 <= d1 - B - (d2 - C)) ->
  0 <= A * d2 - B * d1 /\ 0 <= C * d1 - B * d2 /\ 0 <= (d1 - A) * (d2 - C) - (d1 - B) * (d2 - B).
Proof.
  intros HA HC HB H1 H2 H3 H4 H5 H6.
  assert (VC : 0 <= A * d2 - B * d1) by now apply (face_region_c A B C d1 d2).
  assert (VB : 0 <= C * d1 - B * d2).
  { apply (face_region_c C B A d2 d1); try easy; try lra. }
  split; [easy|]. split; [easy|]. apply Rnot_lt_le. intros N.
  destruct (Rlt_le_dec (d2 - B - (d1 - A)) 0) as [L|L].
  - assert (D : d1 - A < 0) by lra. assert (E : d2 - B < d1 - A) by lra. clear H1 H2 H3 H4 H5 H6.
    apply (dual_cone (- ((d1 - A) * (d2 - C) - (d1 - B) * (d2 - B))) (A * d2 - B * d1) A (B - A) (A - 2 * B + C)); try lra.
    + replace (_ + _) with ((A * C - B * B) * (d1 - A)) by ring. nra.
    + replace (_ + _) with ((A * C - B * B) * (d2 - B - (d1 - A))) by ring. nra.
  - destruct (Rlt_le_dec (d1 - B - (d2 - C)) 0) as [L2|L2]; [|apply H6; lra]. assert (D : d2 - C < 0) by lra. assert (E : d1 - B < d2 - C) by lra. clear H1 H2 H3 H4 H5 H6.
    apply (dual_cone (- ((d1 - A) * (d2 - C) - (d1 - B) * (d2 - B))) (C * d1 - B * d2) C (B - C) (A - 2 * B + C)); try lra.
    + replace (_ + _) with ((A * C - B * B) * (d2 - C)) by ring. nra.
    + replace (_ + _) with ((A * C - B * B) * (d1 - B - (d2 - C))) by ring. nra.
Qed.
Lemma gram_tri t : proper_tri t -> let x := minus (tri_b t) (tri_a t) in let y := minus (tri_c t) (tri_a t) in
  0 < dot x x /\ 0 < dot y y /\ dot x y * dot x y < dot x x * dot y y.
Proof.
  intros P x y. pose proof (nrm_pos t P) as N. unfold nrm in N. rewrite cross_sq in N. fold x y in N.
  assert (X := dot_pos x). assert (Y := dot_pos y). repeat split; [| |lra]; apply Rnot_le_lt; intros L; assert (0 <= dot x y * dot x y) by (apply Rle_0_sqr); nra.
Qed.
Theorem C47_point (t : triangle R) (p : pt) : proper_tri t -> nearest (in_triangle t) p (Tri_ClosestPoint t p).
Proof.
  intros P. destruct (gram_tri t P) as (HA & HC & HB). destruct t as [a b c]. cbn [tri_a tri_b tri_c] in *. unfold Tri_ClosestPoint.
  change (@Dot R Num_R) with dot. change (@vsub R Num_R) with minus. change (@vadd R Num_R) with plus. change (@smulv R Num_R) with scale. cbv zeta. rewrite !vmuls_R.
  set (x := minus b a) in *. set (y := minus c a) in *. set (A := dot x x) in *. set (B := dot x y) in *. set (C := dot y y) in *.
  set (d1 := dot x (minus p a)) in *. set (d2 := dot y (minus p a)) in *.
  assert (E3 : dot x (minus p b) = d1 - A) by (unfold d1, A, x, y; gunf; ring). assert (E4 : dot y (minus p b) = d2 - B) by (unfold d2, B, x, y; gunf; ring).
  assert (E5 : dot x (minus p c) = d1 - B) by (unfold d1, B, x, y; gunf; ring). assert (E6 : dot y (minus p c) = d2 - C) by (unfold d2, C, x, y; gunf; ring).
  rewrite E3, E4, E5, E6.
  assert (Ec : minus c b = minus y x) by (unfold x, y; apply vec_ext; gunf; ring). rewrite Ec.
  assert (Vc : d1 * (d2 - B) - (d1 - A) * d2 = A * d2 - B * d1) by ring. assert (Vb : (d1 - B) * d2 - d1 * (d2 - C) = C * d1 - B * d2) by ring. rsimpl. rewrite Vc, Vb.
  assert (Sa : forall q, minus p q = minus (minus p a) (minus q a)) by (intros; apply vec_ext; gunf; ring).
  assert (Kb : b = plus a x) by (unfold x; apply vec_ext; gunf; ring). assert (Kc : c = plus a y) by (unfold y; apply vec_ext; gunf; ring).
  (* a point a + v x + w y, seen from p *)
  assert (Q : forall v w, 0 <= v -> 0 <= w -> v + w <= 1 ->
    d1 * - v + d2 * - w + v * (v * A + w * B) + w * (v * B + w * C) <= 0 ->
    (d1 - v * A - w * B) * (1 - v) - (d2 - v * B - w * C) * w <= 0 -> (d2 - v * B - w * C) * (1 - w) - (d1 - v * A - w * B) * v <= 0 ->
    nearest (in_triangle (Tri a b c)) p (plus a (plus (scale v x) (scale w y)))).
  { intros v w Hv Hw Hs F1 F2 F3. apply nearest_tri; cbn [tri_a tri_b tri_c].
    - exists (1 - v - w), v, w. repeat split; try easy; try lra. cbn [tri_a tri_b tri_c]. rewrite Kb, Kc. apply vec_ext; gunf; ring.
    - refine (Rle_trans _ _ _ (Req_le _ _ _) F1). unfold d1, d2, A, B, C. gunf. ring.
    - rewrite Kb. refine (Rle_trans _ _ _ (Req_le _ _ _) F2). unfold d1, d2, A, B, C. gunf. ring.
    - rewrite Kc. refine (Rle_trans _ _ _ (Req_le _ _ _) F3). unfold d1, d2, A, B, C. gunf. ring. }
  clearbody A B C d1 d2. clear E3 E4 E5 E6 Sa Ec Vc Vb.
  assert (R0 : forall v w q, q = plus a (plus (scale v x) (scale w y)) -> nearest (in_triangle (Tri a b c)) p (plus a (plus (scale v x) (scale w y))) -> nearest (in_triangle (Tri a b c)) p q) by (intros v w q ->; easy).
  destruct (Rleb d1 0 && Rleb d2 0) eqn:T1.
  { apply andb_prop in T1. destruct T1 as [G1 G2]. apply Rleb_true in G1, G2. apply (R0 0 0); [apply vec_ext; gunf; ring|]. apply Q; lra. }
  destruct (Rleb 0 (d1 - A) && Rleb (d2 - B) (d1 - A)) eqn:T2.
  { apply andb_prop in T2. destruct T2 as [G1 G2]. apply Rleb_true in G1, G2. apply (R0 1 0); [rewrite Kb; apply vec_ext; gunf; ring|]. apply Q; lra. }
  destruct (Rleb (A * d2 - B * d1) 0 && Rleb 0 d1 && Rleb (d1 - A) 0) eqn:T3.
  { apply andb_prop in T3. destruct T3 as [T3 G3]. apply andb_prop in T3. destruct T3 as [G1 G2]. apply Rleb_true in G1, G2, G3. replace (d1 - (d1 - A)) with A by ring.
    apply (R0 (d1 / A) 0); [apply vec_ext; gunf; ring|]. set (v := d1 / A). assert (Ev : d1 = v * A) by (unfold v; field; lra). clearbody v.
    assert (V0 : 0 <= v) by nra. assert (V1 : v <= 1) by nra. assert (G : d2 - v * B <= 0) by (rewrite Ev in G1; nra).
    apply Q; rewrite ?Ev; lra. }
  destruct (Rleb 0 (d2 - C) && Rleb (d1 - B) (d2 - C)) eqn:T4.
  { apply andb_prop in T4. destruct T4 as [G1 G2]. apply Rleb_true in G1, G2. apply (R0 0 1); [rewrite Kc; apply vec_ext; gunf; ring|]. apply Q; lra. }
  destruct (Rleb (C * d1 - B * d2) 0 && Rleb 0 d2 && Rleb (d2 - C) 0) eqn:T5.
  { apply andb_prop in T5. destruct T5 as [T5 G3]. apply andb_prop in T5. destruct T5 as [G1 G2]. apply Rleb_true in G1, G2, G3. replace (d2 - (d2 - C)) with C by ring.
    apply (R0 0 (d2 / C)); [apply vec_ext; gunf; ring|]. set (v := d2 / C). assert (Ev : d2 = v * C) by (unfold v; field; lra). clearbody v.
    assert (V0 : 0 <= v) by nra. assert (V1 : v <= 1) by nra. assert (G : d1 - v * B <= 0) by (rewrite Ev in G1; nra).
    apply Q; rewrite ?Ev; lra. }
  destruct (Rleb ((d1 - A) * (d2 - C) - (d1 - B) * (d2 - B)) 0 && Rleb 0 (d2 - B - (d1 - A)) && Rleb 0 (d1 - B - (d2 - C))) eqn:T6.
  { apply andb_prop in T6. destruct T6 as [T6 G3]. apply andb_prop in T6. destruct T6 as [G1 G2]. apply Rleb_true in G1, G2, G3.
    replace (d2 - B - (d1 - A) + (d1 - B) - (d2 - C)) with (A - 2 * B + C) by ring.
    assert (Z : 0 < A - 2 * B + C).
    { apply Rmult_lt_reg_l with A; [easy|]. pose proof (Rle_0_sqr (A - B)) as S. unfold Rsqr in S. lra. }
    set (w := (d2 - B - (d1 - A)) / (A - 2 * B + C)). assert (Ew : d2 - B - (d1 - A) = w * (A - 2 * B + C)) by (unfold w; field; lra). clearbody w.
    apply (R0 (1 - w) w); [rewrite Kb; apply vec_ext; gunf; ring|].
    assert (W0 : 0 <= w) by nra. assert (W1 : w <= 1) by nra.
    assert (Ed : d2 = w * (A - 2 * B + C) + B + d1 - A) by lra. subst d2.
    assert (G : A - d1 + w * (B - A) <= 0).
    { revert G1. replace (_ - _ * _) with ((A - 2 * B + C) * (A - d1 + w * (B - A))) by ring. intros. nra. }
    apply Q; lra. }
  assert (NB : forall p q : bool, p && q = false -> ~ (p = true /\ q = true)) by (intros [|] [|] H [H1 H2]; discriminate).
  assert (NB3 : forall p q r : bool, p && q && r = false -> ~ (p = true /\ q = true /\ r = true)) by (intros [|] [|] [|] H [H1 [H2 H3]]; discriminate).
  apply NB in T1, T2, T4. apply NB3 in T3, T5, T6. rewrite !Rleb_true in T1. rewrite !Rleb_true in T2. rewrite !Rleb_true in T3. rewrite !Rleb_true in T4. rewrite !Rleb_true in T5. rewrite !Rleb_true in T6.
  destruct (face_region A B C d1 d2) as (VC & VB & VA); try easy.
  assert (D : (d1 - A) * (d2 - C) - (d1 - B) * (d2 - B) + (C * d1 - B * d2) + (A * d2 - B * d1) = A * C - B * B) by ring. rewrite D.
  set (v := (C * d1 - B * d2) * (1 / (A * C - B * B))). set (w := (A * d2 - B * d1) * (1 / (A * C - B * B))).
  assert (K : 0 < 1 / (A * C - B * B)) by (apply Rdiv_lt_0_compat; lra).
  assert (V0 : 0 <= v) by (apply Rmult_le_pos; lra). assert (W0 : 0 <= w) by (apply Rmult_le_pos; lra).
  assert (U0 : 0 <= 1 - v - w). { replace (1 - v - w) with (((d1 - A) * (d2 - C) - (d1 - B) * (d2 - B)) * (1 / (A * C - B * B))) by (unfold v, w; field; lra). apply Rmult_le_pos; lra. }
  assert (E1 : d1 = v * A + w * B) by (unfold v, w; field; lra). assert (E2 : d2 = v * B + w * C) by (unfold v, w; field; lra).
  apply (R0 v w); [apply vec_ext; gunf; ring|]. clearbody v w. apply Q; try lra; [apply Req_le; rewrite E1, E2; ring| |]; rewrite E1, E2; apply Req_le; ring.
Qed.
Example C47_point_witness : proper_tri w_tri /\ Tri_ClosestPoint w_tri (V3 2 (7 / 2) (13 / 4)) = V3 2 (7 / 2) (13 / 4).
Proof.
  split; [apply w_tri_proper|]. destruct (C47_point w_tri (V3 2 (7 / 2) (13 / 4)) w_tri_proper) as [_ H].
  apply dist_zero, Rle_antisym; [|apply norm_pos]. apply Rle_trans with (dist (V3 2 (7 / 2) (13 / 4)) (V3 2 (7 / 2) (13 / 4))); [|apply Req_le; now apply dist_zero].
  apply H. exists (1 / 2), (1 / 4), (1 / 4). repeat split; try lra. apply vec_ext; unfold w_tri; gunf; cbn; field.
Qed.
Print Assumptions C46_barycentric.
Print Assumptions C46_any_point.
Print Assumptions C46_point.
Print Assumptions C46_inside.
Print Assumptions C46_contains.
Print Assumptions C46_contains_seg_tri.
Print Assumptions C47_point.
