(** Circles and discs (C76). *)
From Coq Require Import Reals Psatz List.
From Verif Require Import Num NumR ScalarModel ScalarProofs Vec3Model GeoTypes GeoSpec GeoLemmas Vec3Props AabbModel AabbSpec MatModel MatSpec MatProofs MatProofs2 LineModel LineSpec LineProofs LineProofs2 LineProps
  RotModel RotSpec RotProofs RotProofs3 PlaneModel PlaneSpec PlaneProps PlaneProps2 PlaneProps3 SphereModel SphereSpec SphereProps SphereProps2 CircleModel.
Import ListNotations.
Open Scope R_scope.
Ltac Zify.zify_post_hook ::= idtac.

(** A unit normal that is exactly along the y axis or at least a millionth away from it: closer ones get a basis that is not
    exactly in the plane. *)
Definition good_normal (n : pt) : Prop := unitv n /\ (vx n = 0 /\ vz n = 0 \/ 1 / 1000000000000 < vx n * vx n + vz n * vz n).
Lemma frame (n : pt) : good_normal n ->
  let u := Perpendicular n (V3 0 1 0) (V3 0 0 1) in let v := AnotherPerpendicular n (V3 0 1 0) (V3 0 0 1) in
  unitv u /\ unitv v /\ orth n u /\ orth n v /\ orth u v /\ volume n u v = 1.
Proof.
  intros [U G] u v. assert (Q : dot (Cross n (V3 0 1 0)) (Cross n (V3 0 1 0)) = vx n * vx n + vz n * vz n) by (unfold Cross, dot; rsimpl; cbn [vx vy vz]; ring).
  assert (A : unitv u /\ orth n u).
  { destruct (C27_perpendicular n (V3 0 1 0) (V3 0 0 1)) as [P1 P2]. destruct G as [[X Z]|G].
    - unfold u. rewrite P2.
      + unfold unitv, orth, dot. cbn [vx vy vz]. rewrite Z. lra.
      + apply norm_sq_le; [lra|]. rewrite Q, X, Z. lra.
    - destruct P1 as (A & B & _); [|tauto]. pose proof (norm_pos (Cross n (V3 0 1 0))). pose proof (norm_sq (Cross n (V3 0 1 0))). rewrite Q in H0. nra. }
  destruct A as [Uu O]. split; [exact Uu|]. assert (E : v = Cross n u).
  { unfold v, AnotherPerpendicular. apply Normalized_unit. unfold unitv. change (@Cross R Num_R) with cross. rewrite cross_sq. unfold orth in O. fold u. rewrite U, Uu, O. ring. }
  clearbody v. subst v. change (Cross n u) with (cross n u). unfold orth, unitv in *. rewrite cross_dot_l, cross_dot_r, cross_sq, U, Uu, O. repeat split; try ring.
  replace (volume n u (cross n u)) with (dot (cross n u) (cross n u)) by (unfold volume, cross, dot; cbn [vx vy vz]; ring). rewrite cross_sq, U, Uu, O. ring.
Qed.
Lemma in_frame (n u v w : pt) : unitv n -> unitv u -> unitv v -> orth n u -> orth n v -> orth u v -> dot n w = 0 ->
  w = plus (scale (dot u w) u) (scale (dot v w) v).
Proof.
  intros Un Uu Uv O1 O2 O3 Z. pose proof (fun b => parseval n u v w b Un Uu Uv O1 O2 O3) as P. rewrite Z in P.
  pose proof (P (V3 1 0 0)) as X. pose proof (P (V3 0 1 0)) as Y. pose proof (P (V3 0 0 1)) as W.
  assert (E : forall a : pt, dot a (V3 1 0 0) = vx a /\ dot a (V3 0 1 0) = vy a /\ dot a (V3 0 0 1) = vz a) by (intros; unfold dot; cbn [vx vy vz]; lra).
  destruct (E n) as (N1 & N2 & N3), (E u) as (U1 & U2 & U3), (E v) as (V1 & V2 & V3), (E w) as (W1 & W2 & W3).
  rewrite N1, U1, V1, W1 in X. rewrite N2, U2, V2, W2 in Y. rewrite N3, U3, V3, W3 in W.
  apply vec_ext; unfold plus, scale; cbn [vx vy vz]; lra.
Qed.
Theorem C76_basis (c : circle R) : good_normal (circ_normal c) ->
  unitv (Circle_BasisU c) /\ unitv (Circle_BasisV c) /\ orth (circ_normal c) (Circle_BasisU c) /\ orth (circ_normal c) (Circle_BasisV c) /\
  orth (Circle_BasisU c) (Circle_BasisV c) /\ volume (circ_normal c) (Circle_BasisU c) (Circle_BasisV c) = 1.
Proof. exact (frame (circ_normal c)). Qed.
Print Assumptions C76_basis.

(** ** Points of the circle and of the disc *)
Lemma GetPoint_R (c : circle R) a : Circle_GetPoint c a = plus (circ_pos c) (scale (circ_r c) (plus (scale (sin a) (Circle_BasisU c)) (scale (cos a) (Circle_BasisV c)))).
Proof. reflexivity. Qed.
Lemma GetPointDist_R (c : circle R) a d : Circle_GetPointDist c a d = plus (circ_pos c) (scale (circ_r c * d) (plus (scale (cos a) (Circle_BasisU c)) (scale (sin a) (Circle_BasisV c)))).
Proof. reflexivity. Qed.
Lemma plus_minus_l (a b : pt) : minus (plus a b) a = b.
Proof. gunf. apply vec_ext; cbn [vx vy vz]; ring. Qed.
Lemma dist_plus (a b : pt) : dist a (plus a b) = norm b.
Proof. rewrite dist_sym. unfold dist. now rewrite plus_minus_l. Qed.
Lemma turn_unit (u v : pt) x y : unitv u -> unitv v -> orth u v -> x * x + y * y = 1 -> unitv (plus (scale x u) (scale y v)).
Proof.
  unfold unitv, orth. intros U V O E. rewrite dot_plus_l, !dot_plus_r, !dot_scale_l, !dot_scale_r, (dot_comm v u), U, V, O. lra.
Qed.
Lemma sin2_cos2' a : sin a * sin a + cos a * cos a = 1.
Proof. pose proof (sin2_cos2 a) as E. unfold Rsqr in E. exact E. Qed.
Lemma overloads (c : circle R) a : Circle_GetPoint c a = Circle_GetPointDist c (PI / 2 - a) 1.
Proof. rewrite GetPoint_R, GetPointDist_R, cos_shift, sin_shift, Rmult_1_r. reflexivity. Qed.
Theorem C76_points (c : circle R) : good_normal (circ_normal c) -> 0 <= circ_r c ->
  (forall a, on_circle c (Circle_GetPoint c a)) /\
  (forall p, on_circle c p -> exists a, - PI < a <= PI /\ Circle_GetPoint c a = p) /\
  (forall a d, 0 <= d <= 1 -> on_disc c (Circle_GetPointDist c a d) /\ dist (circ_pos c) (Circle_GetPointDist c a d) = circ_r c * d) /\
  (forall p, on_disc c p -> exists a d, - PI < a <= PI /\ 0 <= d <= 1 /\ Circle_GetPointDist c a d = p).
Proof.
  intros G Rc. destruct (C76_basis c G) as (Uu & Uv & O1 & O2 & O3 & _). destruct G as [Un _].
  set (u := Circle_BasisU c) in *. set (v := Circle_BasisV c) in *. set (n := circ_normal c) in *.
  assert (D : forall a d, 0 <= d -> dot n (minus (Circle_GetPointDist c a d) (circ_pos c)) = 0 /\ dist (circ_pos c) (Circle_GetPointDist c a d) = circ_r c * d).
  { intros a d Hd. rewrite GetPointDist_R. fold u v. rewrite plus_minus_l, dist_plus, dot_scale_r, dot_plus_r, !dot_scale_r. unfold orth in O1, O2. rewrite O1, O2. split; [ring|].
    rewrite norm_scale, (unit_norm1 (plus _ _)), Rabs_pos_eq; [ring|nra|]. apply turn_unit; auto. rewrite Rplus_comm. apply sin2_cos2'. }
  assert (S : forall p, on_disc c p -> exists a d, - PI < a <= PI /\ 0 <= d <= 1 /\ circ_r c * d = dist (circ_pos c) p /\ Circle_GetPointDist c a d = p /\
                     plus (circ_pos c) (scale (circ_r c * d) (plus (scale (cos a) u) (scale (sin a) v))) = p).
  { intros p [Z L]. fold n in Z. set (w := minus p (circ_pos c)) in *. assert (Ep : p = plus (circ_pos c) w) by (unfold w; gunf; apply vec_ext; cbn [vx vy vz]; ring).
    pose proof (in_frame n u v w Un Uu Uv O1 O2 O3 Z) as E. set (x := dot u w) in *. set (y := dot v w) in *. assert (Dp : dist (circ_pos c) p = norm w) by (rewrite Ep; apply dist_plus).
    assert (N : dot w w = x * x + y * y) by (pose proof (parseval n u v w w Un Uu Uv O1 O2 O3) as P; rewrite Z in P; unfold x, y; lra).
    rewrite Dp in *. pose proof (norm_pos w) as NP. destruct (Req_dec (norm w) 0) as [Zr|Nz].
    - exists 0, 0. pose proof PI_RGT_0. split; [lra|]. split; [lra|]. split; [lra|].
      assert (W0 : w = origin) by (now apply norm_zero). rewrite GetPointDist_R. fold u v. split; rewrite Ep, W0; gunf; apply vec_ext; cbn [vx vy vz]; ring.
    - assert (Rp : 0 < circ_r c) by lra. exists (Ratan2 y x), (norm w / circ_r c). assert (Ed : circ_r c * (norm w / circ_r c) = norm w) by (field; lra).
      split; [apply Ratan2_range|]. split; [split; [apply Rmult_le_reg_l with (circ_r c); lra|apply Rmult_le_reg_l with (circ_r c); lra]|]. split; [exact Ed|].
      rewrite GetPointDist_R, Ed. fold u v. assert (Pos : 0 < x * x + y * y) by (rewrite <- N; pose proof (norm_sq w); nra).
      destruct (Ratan2_polar x y Pos) as [C S]. rewrite <- N in C, S. fold (norm w) in C, S.
      assert (F : plus (circ_pos c) (scale (norm w) (plus (scale (cos (Ratan2 y x)) u) (scale (sin (Ratan2 y x)) v))) = p).
      { rewrite Ep. f_equal. transitivity (plus (scale x u) (scale y v)); [|symmetry; exact E]. set (cs := cos (Ratan2 y x)) in *. set (sn := sin (Ratan2 y x)) in *. set (m := norm w) in *. clearbody m cs sn.
        rewrite <- C, <- S. gunf; apply vec_ext; cbn [vx vy vz]; ring. } split; exact F. }
  split; [|split; [|split]].
  - intros a. rewrite overloads. destruct (D (PI / 2 - a) 1 ltac:(lra)) as [A B]. split; [exact A|]. lra.
  - intros p [Z L]. destruct (S p) as (a & d & Ra & Rd & Er & E & F); [split; [exact Z|lra]|]. rewrite L in Er.
    set (y := cos a) in *. set (x := sin a) in *. exists (Ratan2 y x). split; [apply Ratan2_range|]. rewrite GetPoint_R. fold u v.
    assert (P1 : y * y + x * x = 1) by (unfold x, y; rewrite Rplus_comm; apply sin2_cos2'). destruct (Ratan2_polar x y ltac:(lra)) as [C' S']. replace (x * x + y * y) with 1 in * by lra. rewrite sqrt_1 in *. rewrite Rmult_1_l in *.
    rewrite C', S'. rewrite Er in F. exact F.
  - intros a d Hd. destruct (D a d ltac:(lra)) as [A B]. split; [|exact B]. split; [exact A|]. rewrite B. nra.
  - intros p P. destruct (S p P) as (a & d & Ra & Rd & _ & E & _). exists a, d. auto.
Qed.
Print Assumptions C76_points.
Example C76_points_witness : good_normal (V3 (3/5) 0 (4/5)) /\ good_normal (V3 0 (-1) 0) /\ on_disc (Circ (V3 1 2 3) (V3 0 (-1) 0) 5) (V3 4 2 7).
Proof. unfold good_normal, unitv, on_disc. repeat split; try (right; cbn; lra); try (left; cbn; lra); try (unfold dot; cbn; lra). unfold dist. apply norm_sq_le; cbn; [lra|]. unfold dot, minus; cbn. lra. Qed.

(** The two overloads disagree: the same angle gives different points, GetPoint(a) = GetPoint(pi/2 - a, 1). *)
Theorem C76_overloads_refuted (c : circle R) : good_normal (circ_normal c) -> 0 < circ_r c ->
  (forall a, Circle_GetPoint c a = Circle_GetPointDist c (PI / 2 - a) 1) /\ Circle_GetPoint c 0 <> Circle_GetPointDist c 0 1.
Proof.
  intros G P. split; [apply overloads|]. destruct (C76_basis c G) as (Uu & Uv & _ & _ & O3 & _).
  rewrite GetPoint_R, GetPointDist_R, sin_0, cos_0. intros E. apply (f_equal (fun q => dot (Circle_BasisU c) (minus q (circ_pos c)))) in E. rewrite !plus_minus_l, !dot_scale_r, !dot_plus_r, !dot_scale_r in E.
  unfold unitv, orth in *. rewrite Uu, O3 in E. lra.
Qed.
Print Assumptions C76_overloads_refuted.
Example C76_overloads_witness : good_normal (circ_normal (Circ (V3 1 2 3) (V3 (3/5) 0 (4/5)) 2)) /\ 0 < circ_r (Circ (V3 1 2 3) (V3 (3/5) 0 (4/5)) 2).
Proof. split; [|cbn; lra]. unfold good_normal, unitv. split; [unfold dot; cbn; lra|right; cbn; lra]. Qed.

(** ** Extreme points *)
Lemma ScaledTo_R (v : pt) r : 1 / 1000000 <= dot v v -> ScaledToLength v r = scale (r / norm v) v.
Proof.
  intros L. unfold ScaledToLength, ScaleToLength. change (LengthSq v) with (dot v v). rsimpl. rewrite (proj2 (Rltb_false _ _)) by lra. cbn [fst]. unfold norm, scale. apply vec_ext; cbn [vx vy vz]; ring.
Qed.
Lemma scaled_norm (v : pt) r : 0 < norm v -> 0 <= r -> norm (scale (r / norm v) v) = r.
Proof. intros P H. rewrite norm_scale, Rabs_pos_eq; [field; lra|]. apply Rmult_le_pos; [exact H|]. left. now apply Rinv_0_lt_compat. Qed.
(** The part of a direction that lies in the plane of the circle. *)
Definition in_plane_part (c : circle R) (d : pt) : pt := minus d (scale (dot d (circ_normal c)) (circ_normal c)).
Theorem C76_extreme (c : circle R) (d : pt) : unitv (circ_normal c) -> 0 <= circ_r c -> let e := in_plane_part c d in
  (1 / 1000000 <= dot e e -> on_circle c (Circle_ExtremePoint c d) /\ forall p, on_disc c p -> dot d p <= dot d (Circle_ExtremePoint c d)) /\
  (dot e e <= 1 / 10000000 -> Circle_ExtremePoint c d = circ_pos c /\ forall p, on_disc c p -> dot d p <= dot d (Circle_ExtremePoint c d) + circ_r c * norm e).
Proof.
  intros U Rc e. unfold Circle_ExtremePoint, ProjectToNorm. change (@Dot R Num_R) with dot. change (@vsub R Num_R) with minus. rewrite vmuls_R. fold (in_plane_part c d). fold e.
  assert (O : dot (circ_normal c) e = 0) by (unfold e, in_plane_part; rewrite dot_minus_r, dot_scale_r; unfold unitv in U; rewrite U, (dot_comm d); ring).
  assert (K : forall p, on_disc c p -> dot d p <= dot d (circ_pos c) + circ_r c * norm e).
  { intros p [Z L]. replace (dot d p) with (dot d (circ_pos c) + dot e (minus p (circ_pos c))).
    - pose proof (cauchy e (minus p (circ_pos c))) as Cs. fold (dist p (circ_pos c)) in Cs. rewrite dist_sym in Cs. pose proof (Rle_abs (dot e (minus p (circ_pos c)))). pose proof (norm_pos e). nra.
    - unfold e, in_plane_part. rewrite dot_minus_l, dot_scale_l, Z, dot_minus_r. ring. }
  split; intros L.
  - rewrite (proj2 (IsZero_R e)) by lra. change (@vadd R Num_R) with plus. rewrite ScaledTo_R by exact L. assert (P : 0 < norm e) by (apply sqrt_lt_R0; lra). split; [split|].
    + rewrite plus_minus_l, dot_scale_r, O. ring.
    + rewrite dist_plus. now apply scaled_norm.
    + intros p D. eapply Rle_trans; [apply (K p D)|]. rewrite dot_plus_r, dot_scale_r. apply Req_le. f_equal.
      replace (dot d e) with (dot e e) by (unfold e at 1, in_plane_part; rewrite dot_minus_l, dot_scale_l, O; ring). rewrite <- norm_sq. field. lra.
  - assert (Ze : IsZero e = true) by (destruct (IsZero e) eqn:E; [reflexivity|]; apply (IsZero_R e) in E; lra). rewrite Ze. split; [reflexivity|exact K].
Qed.
Print Assumptions C76_extreme.
Example C76_extreme_witness : let c := Circ (V3 1 2 3) (V3 0 0 1) 2 in 1 / 1000000 <= dot (in_plane_part c (V3 1 2 3)) (in_plane_part c (V3 1 2 3)) /\ dot (in_plane_part c (V3 0 0 3)) (in_plane_part c (V3 0 0 3)) <= 1 / 10000000.
Proof. unfold in_plane_part, dot, minus, scale. cbn. lra. Qed.
(** In between, the result is at distance r along x, whatever the circle: not even in its plane. *)
Theorem C76_near_axis_refuted : exists (c : circle R) (d : pt), good_normal (circ_normal c) /\ 0 < circ_r c /\ ~ on_disc c (Circle_ExtremePoint c d).
Proof.
  exists (Circ (V3 0 0 0) (V3 1 0 0) 1), (V3 1 (1/2000) 0). split; [unfold good_normal, unitv, dot; cbn; split; [lra|right; lra]|]. split; [cbn; lra|].
  unfold Circle_ExtremePoint, ProjectToNorm. change (@Dot R Num_R) with dot. change (@vsub R Num_R) with minus. rewrite vmuls_R. cbn [circ_normal circ_pos circ_r].
  set (e := minus _ _). assert (E : dot e e = 1 / 4000000) by (unfold e, minus, scale, dot; cbn; lra). rewrite (proj2 (IsZero_R e)) by lra.
  unfold ScaledToLength, ScaleToLength. change (LengthSq e) with (dot e e). rsimpl. rewrite (proj2 (Rltb_true _ _)) by lra. cbn [fst]. intros [Z _]. unfold dot, minus, vadd in Z. cbn in Z. rsimpl. lra.
Qed.
Print Assumptions C76_near_axis_refuted.

(** ** Nearest points *)
Lemma sq_le_dist (a b c d : pt) : dot (minus a b) (minus a b) <= dot (minus c d) (minus c d) -> dist a b <= dist c d.
Proof. intros H. unfold dist, norm. now apply sqrt_le_1_alt. Qed.
Lemma plane_part (c : circle R) p : unitv (circ_normal c) -> let h := dot (circ_normal c) (minus p (circ_pos c)) in let e := minus (Plane_Project (Circle_ContainingPlane c) p) (circ_pos c) in
  dot (circ_normal c) e = 0 /\ e = in_plane_part c (minus p (circ_pos c)) /\
  forall w, dot (circ_normal c) w = 0 -> dist (plus (circ_pos c) w) p * dist (plus (circ_pos c) w) p = h * h + dot (minus e w) (minus e w).
Proof.
  intros U h e. assert (E : e = in_plane_part c (minus p (circ_pos c))).
  { unfold e, in_plane_part, Plane_Project, Circle_ContainingPlane, Plane_Set. cbn [pnormal pd]. toG. rewrite dot_minus_l, (dot_comm (circ_pos c)), (dot_comm p). rsimpl. gunf. apply vec_ext; cbn [vx vy vz]; ring. }
  assert (O : dot (circ_normal c) e = 0). { rewrite E. unfold in_plane_part. rewrite dot_minus_r, dot_scale_r. unfold unitv in U. rewrite U, (dot_comm (circ_normal c)). ring. }
  split; [exact O|]. split; [exact E|]. intros w W. rewrite dist_sym. unfold dist. rewrite norm_sq.
  replace (minus p (plus (circ_pos c) w)) with (plus (minus e w) (scale h (circ_normal c))) by (rewrite E; unfold in_plane_part, h; rewrite (dot_comm (circ_normal c)); gunf; apply vec_ext; cbn [vx vy vz]; ring).
  rewrite dot_plus_l, !dot_plus_r, !dot_scale_l, !dot_scale_r, (dot_comm (minus e w) (circ_normal c)), (dot_minus_r e w (circ_normal c)), O, W. unfold unitv in U. rewrite U. ring.
Qed.
Lemma dist_sq_mono a b : 0 <= a -> 0 <= b -> a * a <= b * b -> a <= b.
Proof. intros. nra. Qed.
Lemma norm_diff (e w : pt) : (norm e - norm w) * (norm e - norm w) <= dot (minus e w) (minus e w).
Proof.
  pose proof (cauchy e w) as C. pose proof (Rle_abs (dot e w)). rewrite dot_minus_l, !dot_minus_r, (dot_comm w e), <- !norm_sq. nra.
Qed.
Lemma disc_split (c : circle R) q : on_disc c q -> exists w, q = plus (circ_pos c) w /\ dot (circ_normal c) w = 0 /\ norm w <= circ_r c.
Proof. intros [Z L]. exists (minus q (circ_pos c)). split; [gunf; apply vec_ext; cbn [vx vy vz]; ring|]. split; [exact Z|]. rewrite dist_sym in L. exact L. Qed.
Lemma circle_split (c : circle R) q : on_circle c q -> exists w, q = plus (circ_pos c) w /\ dot (circ_normal c) w = 0 /\ norm w = circ_r c.
Proof. intros [Z L]. exists (minus q (circ_pos c)). split; [gunf; apply vec_ext; cbn [vx vy vz]; ring|]. split; [exact Z|]. rewrite dist_sym in L. exact L. Qed.
Lemma shrink_diff (e : pt) r : 0 < norm e -> dot (minus e (scale (r / norm e) e)) (minus e (scale (r / norm e) e)) = (norm e - r) * (norm e - r).
Proof.
  intros P. replace (minus e (scale (r / norm e) e)) with (scale (1 - r / norm e) e) by (gunf; apply vec_ext; cbn [vx vy vz]; ring). rewrite dot_scale_l, dot_scale_r, <- norm_sq. field. lra.
Qed.
Theorem C76_closest_disc (c : circle R) (p : pt) : unitv (circ_normal c) -> 0 <= circ_r c ->
  nearest (on_disc c) p (Circle_ClosestPointToDisc c p) /\ distance_is (on_disc c) (single p) (Circle_DistanceToDisc c p).
Proof.
  intros U Rc. assert (N : nearest (on_disc c) p (Circle_ClosestPointToDisc c p)).
  { destruct (plane_part c p U) as (O & _ & D). set (h := dot (circ_normal c) (minus p (circ_pos c))) in *. unfold Circle_ClosestPointToDisc. change (@vadd R Num_R) with plus. change (@vsub R Num_R) with minus.
    change (@LengthSq R Num_R) with (fun x : pt => dot x x). cbv beta. set (e := minus (Plane_Project (Circle_ContainingPlane c) p) (circ_pos c)) in *. rsimpl. rewrite vmuls_R. pose proof (norm_pos e) as NP. pose proof (norm_sq e) as NS.
    destruct (Rltb_spec (circ_r c * circ_r c) (dot e e)) as [L|L].
    - fold (norm e). assert (P : circ_r c < norm e) by nra. split; [split|].
      + rewrite plus_minus_l, dot_scale_r, O. ring.
      + rewrite dist_plus, scaled_norm; lra.
      + intros q Q. destruct (disc_split c q Q) as (w & -> & W1 & W2). apply dist_sq_mono; [apply norm_pos|apply norm_pos|]. rewrite D by (rewrite dot_scale_r, O; ring). rewrite D by exact W1. rewrite shrink_diff by lra.
        pose proof (norm_diff e w). nra.
    - assert (P : norm e <= circ_r c) by nra. split; [split|].
      + now rewrite plus_minus_l.
      + now rewrite dist_plus.
      + intros q Q. destruct (disc_split c q Q) as (w & -> & W1 & W2). apply dist_sq_mono; [apply norm_pos|apply norm_pos|]. rewrite D by exact O. rewrite D by exact W1.
        replace (minus e e) with origin by (gunf; apply vec_ext; cbn [vx vy vz]; ring). pose proof (dot_pos (minus e w)). unfold dot at 1, origin. cbn [vx vy vz]. lra. }
  split; [exact N|]. unfold Circle_DistanceToDisc. change (@Distance R Num_R) with dist. now apply nearest_distance.
Qed.
Print Assumptions C76_closest_disc.
(** A point whose projection to the plane is at the centre, or at least a thousandth away from it. *)
Definition off_centre (c : circle R) (p : pt) : Prop :=
  let e := in_plane_part c (minus p (circ_pos c)) in e = origin \/ 1 / 1000000 <= dot e e.
Theorem C76_closest_edge (c : circle R) (p : pt) (x : R) : good_normal (circ_normal c) -> 0 <= circ_r c -> off_centre c p ->
  nearest (on_circle c) p (Circle_ClosestPointToEdge c p) /\ distance_is (on_circle c) (single p) (Circle_DistanceToEdge c p) /\
  (Circle_EdgeContains c p x = true <-> exists q, on_circle c q /\ dist q p <= x).
Proof.
  intros G Rc Off. pose proof (proj1 G) as U.
  assert (N : nearest (on_circle c) p (Circle_ClosestPointToEdge c p)).
  { destruct (plane_part c p U) as (O & Ee & D). set (h := dot (circ_normal c) (minus p (circ_pos c))) in *. unfold Circle_ClosestPointToEdge. change (@vadd R Num_R) with plus. change (@vsub R Num_R) with minus.
    unfold off_centre in Off. cbv zeta in Off. rewrite <- Ee in Off. cbv zeta. set (e := minus (Plane_Project (Circle_ContainingPlane c) p) (circ_pos c)) in *. pose proof (norm_pos e) as NP. pose proof (norm_sq e) as NS.
    destruct Off as [Z|L].
    - assert (Ze : IsZero e = true) by (destruct (IsZero e) eqn:E; [reflexivity|]; apply (IsZero_R e) in E; rewrite Z in E; unfold dot, origin in E; cbn in E; lra). rewrite Ze.
      destruct (C76_points c G Rc) as (P & _). specialize (P 0). change (@n0 R Num_R) with 0. split; [exact P|]. intros q Q.
      destruct (circle_split c _ P) as (w' & E' & W1' & W2'). destruct (circle_split c q Q) as (w & -> & W1 & W2). rewrite E'. apply dist_sq_mono; [apply norm_pos|apply norm_pos|].
      rewrite !D by assumption. apply Req_le. f_equal. rewrite Z. assert (A : forall y : pt, dot (minus origin y) (minus origin y) = norm y * norm y) by (intros; rewrite norm_sq; gunf; cbn [vx vy vz]; ring).
      rewrite !A. now rewrite W2, W2'.
    - rewrite (proj2 (IsZero_R e)) by lra. rewrite ScaledTo_R by exact L. assert (P : 0 < norm e) by nra. split; [split|].
      + rewrite plus_minus_l, dot_scale_r, O. ring.
      + rewrite dist_plus. now apply scaled_norm.
      + intros q Q. destruct (circle_split c q Q) as (w & -> & W1 & W2). apply dist_sq_mono; [apply norm_pos|apply norm_pos|]. rewrite D by (rewrite dot_scale_r, O; ring). rewrite D by exact W1. rewrite shrink_diff by exact P.
        pose proof (norm_diff e w) as ND. rewrite W2 in ND. lra. }
  assert (Dd : distance_is (on_circle c) (single p) (Circle_DistanceToEdge c p)) by (unfold Circle_DistanceToEdge; change (@Distance R Num_R) with dist; now apply nearest_distance).
  split; [exact N|]. split; [exact Dd|]. unfold Circle_EdgeContains. rsimpl. rewrite Rleb_true. destruct Dd as [(a & b & A & B & E) M]. unfold single in B. subst b. split.
  - intros H. exists a. split; [exact A|lra].
  - intros (q & Q & L). eapply Rle_trans; [apply (M q p Q); reflexivity|exact L].
Qed.
Print Assumptions C76_closest_edge.
Example C76_closest_witness : let c := Circ (V3 1 2 3) (V3 0 0 1) 2 in good_normal (circ_normal c) /\ off_centre c (V3 1 2 9) /\ off_centre c (V3 4 2 9).
Proof.
  unfold good_normal, off_centre, in_plane_part, unitv. split; [split; [unfold dot; cbn; lra|right; cbn; lra]|]. split; [left; gunf; apply vec_ext; cbn [circ_normal circ_pos vx vy vz]; ring|right; unfold dot, minus, scale; cbn; lra].
Qed.

(** ** Transforms *)
Lemma image_disc (c c' : circle R) (f : pt -> pt) k : 0 < k -> (forall x, dist (f (circ_pos c)) (f x) = k * dist (circ_pos c) x) ->
  (forall x, dot (circ_normal c') (minus (f x) (f (circ_pos c))) = k * dot (circ_normal c) (minus x (circ_pos c))) -> (forall q, exists p, q = f p) ->
  circ_pos c' = f (circ_pos c) -> circ_r c' = circ_r c * k ->
  (forall p, on_disc c' p <-> image f (on_disc c) p) /\ (forall p, on_circle c' p <-> image f (on_circle c) p).
Proof.
  intros K D N S Ep Er. unfold image. split; intros p; (split; [intros [Z L]; destruct (S p) as (x & ->); rewrite Ep in Z, L; rewrite N in Z; rewrite D, Er in L; exists x; split; [split; nra|reflexivity]|]).
  - intros (x & [Z L] & ->). split; rewrite Ep; [rewrite N, Z; ring|rewrite D, Er; nra].
  - intros (x & [Z L] & ->). split; rewrite Ep; [rewrite N, Z; ring|rewrite D, Er; nra].
Qed.
Theorem C76_transforms (c : circle R) (m : mat34 R) (a : mat3 R) (q : quat R) (v : pt) (k : R) : unitv (circ_normal c) -> 1 / 1000000 < k ->
  let same (c' : circle R) (f : pt -> pt) := (forall p, on_disc c' p <-> image f (on_disc c) p) /\ (forall p, on_circle c' p <-> image f (on_circle c) p) /\ unitv (circ_normal c') in
  same (Circle_Translate c v) (fun x => plus x v) /\ (scales_by (apply a) k -> same (Circle_Transform3 c a) (apply a)) /\
  (scales_by (apply (lin34 m)) k -> same (Circle_Transform34 c m) (apply34 m)) /\ (unitq q -> same (Circle_TransformQuat c q) (apply (FromQuat q))).
Proof.
  intros U K same. assert (L : forall b : mat3 R, scales_by (apply b) k -> let n' := Normalized (apply b (circ_normal c)) in n' = scale (/ k) (apply b (circ_normal c)) /\ unitv n').
  { intros b S n'. assert (E : n' = scale (/ k) (apply b (circ_normal c))) by (unfold n'; rewrite Normalized_R; rewrite (S (circ_normal c)), (unit_norm1 _ U), Rmult_1_r; [reflexivity|lra]).
    split; [exact E|]. rewrite E. unfold unitv in *. rewrite dot_scale_l, dot_scale_r, (scales_dot b k S), U. field. lra. }
  assert (T : forall (b : mat3 R) (t x y : pt), minus (plus (apply b x) t) (plus (apply b y) t) = apply b (minus x y)) by (intros; rewrite apply_minus; gunf; apply vec_ext; cbn [vx vy vz]; ring).
  unfold same. split; [|split; [|split]].
  - rewrite <- and_assoc. split; [|exact U]. apply (image_disc c _ _ 1); unfold Circle_Translate; cbn [circ_pos circ_normal circ_r]; try (toG; reflexivity); try lra.
    + intros x. rewrite Rmult_1_l. unfold dist. f_equal. gunf; apply vec_ext; cbn [vx vy vz]; ring.
    + intros x. rewrite Rmult_1_l. f_equal. gunf; apply vec_ext; cbn [vx vy vz]; ring.
    + intros p. exists (minus p v). gunf; apply vec_ext; cbn [vx vy vz]; ring.
  - intros S. destruct (L a S) as [E Un]. rewrite <- and_assoc. split; [|exact Un]. apply (image_disc c _ _ k); unfold Circle_Transform3; cbn [circ_pos circ_normal circ_r]; try reflexivity; try lra.
    + intros x. unfold dist. rewrite <- apply_minus. apply S.
    + intros x. change (mulv a (circ_normal c)) with (apply a (circ_normal c)). rewrite E, dot_scale_l, <- apply_minus, (scales_dot a k S). field. lra.
    + intros p. apply (scales_onto a k); [lra|exact S].
    + rewrite (scales_col a k S). reflexivity.
  - intros S. destruct (L _ S) as [E Un]. rewrite <- and_assoc. split; [|exact Un]. apply (image_disc c _ _ k); unfold Circle_Transform34; cbn [circ_pos circ_normal circ_r]; try reflexivity; try lra.
    + intros x. unfold dist, apply34. rewrite T. apply S.
    + intros x. change (muldir34 m (circ_normal c)) with (apply (lin34 m) (circ_normal c)). rewrite E, dot_scale_l. unfold apply34. rewrite T, (scales_dot _ k S). field. lra.
    + intros p. destruct (scales_onto (lin34 m) k ltac:(lra) S (minus p (trans34 m))) as (x & Ex). exists x. unfold apply34. rewrite <- Ex. gunf; apply vec_ext; cbn [vx vy vz]; ring.
    + rewrite (scales_col _ k S). reflexivity.
  - intros Q. destruct (quat_rotation q Q) as (D & _). assert (S : scales_by (apply (FromQuat q)) 1) by (intros x; unfold norm; rewrite D; ring).
    rewrite <- and_assoc. split; [|unfold Circle_TransformQuat, unitv in *; cbn [circ_normal]; change (mulv (FromQuat q) (circ_normal c)) with (apply (FromQuat q) (circ_normal c)); rewrite D; exact U].
    apply (image_disc c _ _ 1); unfold Circle_TransformQuat; cbn [circ_pos circ_normal circ_r]; try reflexivity; try lra.
    + intros x. unfold dist. rewrite <- apply_minus. apply S.
    + intros x. change (mulv (FromQuat q) (circ_normal c)) with (apply (FromQuat q) (circ_normal c)). rewrite <- apply_minus, D. ring.
    + intros p. apply (scales_onto _ 1); [lra|exact S].
Qed.
Print Assumptions C76_transforms.
Example C76_transforms_witness : unitv (circ_normal (Circ (V3 1 2 3) (V3 (3/5) 0 (4/5)) 2)) /\ 1 / 1000000 < 2 /\ scales_by (apply (M3 (V3 0 2 0) (V3 (-2) 0 0) (V3 0 0 2))) 2.
Proof. split; [unfold unitv, dot; cbn; lra|]. split; [lra|]. apply C44_transforms_witness. Qed.

(** ** IntersectsDisc answers the wrong question: false whenever the line, ray or segment crosses the plane of the circle. *)
Theorem C76_intersects_disc_actual (c : circle R) (l : line R) (r : ray R) (s : segment R) :
  (fst (Plane_IntersectsLine (Circle_ContainingPlane c) l) = true -> Circle_IntersectsDiscLine c l = false) /\
  (fst (Plane_IntersectsRay (Circle_ContainingPlane c) r) = true -> Circle_IntersectsDiscRay c r = false) /\
  (fst (Plane_IntersectsSeg (Circle_ContainingPlane c) s) = true -> Circle_IntersectsDiscSeg c s = false).
Proof.
  unfold Circle_IntersectsDiscLine, Circle_IntersectsDiscRay, Circle_IntersectsDiscSeg.
  destruct (Plane_IntersectsLine _ l) as [x1 d1], (Plane_IntersectsRay _ r) as [x2 d2], (Plane_IntersectsSeg _ s) as [x3 d3]. cbn [fst]. repeat split; intros ->; reflexivity.
Qed.
(** A line through the centre along the normal is reported not to meet the disc; a line parallel to the disc above it is reported to meet it. *)
Theorem C76_intersects_disc_refuted : let c := Circ (V3 0 0 0) (V3 0 0 1) 1 in
  (on_line (Ln (V3 0 0 0) (V3 0 0 1)) (V3 0 0 0) /\ on_disc c (V3 0 0 0) /\ Circle_IntersectsDiscLine c (Ln (V3 0 0 0) (V3 0 0 1)) = false) /\
  ((forall p, on_line (Ln (V3 0 0 (1/2)) (V3 1 0 0)) p -> ~ on_disc c p) /\ Circle_IntersectsDiscLine c (Ln (V3 0 0 (1/2)) (V3 1 0 0)) = true).
Proof.
  intros c. split; (split; [|split]) || split.
  - exists 0. unfold along. gunf. apply vec_ext; cbn [lpos ldir vx vy vz]; ring.
  - split; [unfold dot, minus; cbn; ring|]. unfold dist. apply norm_sq_le; cbn; [lra|]. unfold dot, minus. cbn. lra.
  - apply (C76_intersects_disc_actual c _ (Ry origin origin) (Seg origin origin)). unfold Plane_IntersectsLine, IntersectLinePlane. change (@Dot R Num_R) with dot. rsimpl.
    rewrite Abs_R. replace (dot _ _) with 1 by (unfold dot; cbn; ring). rewrite Rabs_R1, (proj2 (Rltb_true _ _)) by lra. reflexivity.
  - intros p (t & ->) [Z _]. unfold along, dot, minus, plus, scale in Z. cbn in Z. lra.
  - unfold Circle_IntersectsDiscLine, Plane_IntersectsLine, IntersectLinePlane, Circle_ContainingPlane, Plane_Set. change (@Dot R Num_R) with dot. rsimpl. cbn [pnormal pd lpos ldir circ_normal circ_pos circ_r c].
    rewrite Abs_R. replace (dot (V3 0 0 1) (V3 1 0 0)) with 0 by (unfold dot; cbn; ring). rewrite Rabs_R0, (proj2 (Rltb_false _ _)) by lra. destruct (Reqb_spec 0 0) as [_|X]; [|lra]. cbn [negb andb].
    unfold EqualAbs. rsimpl. rewrite Abs_R. replace (dot (V3 0 0 1) (V3 0 0 (1/2)) - dot (V3 0 0 0) (V3 0 0 1)) with (1/2) by (unfold dot; cbn; field). rewrite Rabs_pos_eq by lra. rewrite (proj2 (Rltb_false _ _)) by lra.
    apply Rleb_true. unfold DistanceSq, Line_GetPoint. unfold smulv, vadd, vsub, LengthSq. rsimpl. cbn. lra.
Qed.
Print Assumptions C76_intersects_disc_refuted.
