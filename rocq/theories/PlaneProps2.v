(** Properties C41 (planes against other primitives) and C42 (clipping), over the reals. *)
From Coq Require Import Reals Lra Psatz Bool ZArith List.
From Verif Require Import Num NumR ScalarModel ScalarProofs ScalarProps Vec3Model Vec3Props GeoTypes GeoSpec GeoLemmas AabbSpec AabbModel AabbProps2 MatModel MatSpec MatProofs MatProofs2 MatProps
  LineModel LineSpec LineProofs LineProofs2 LineProps RotModel RotSpec RotProofs PlaneModel PlaneSpec PlaneProps.
Import ListNotations.
Open Scope R_scope.

(** ** C41: line, ray, segment *)
Lemma ILP (n : pt) d (p u : pt) : let c := dot n u in let t := (d - dot n p) / c in
  IntersectLinePlane n d p u = if Rltb (1 / 10000) (Rabs c) then (true, t)
    else if negb (Reqb c 0) && Rltb (Rabs t) 10000 then (true, t) else (Rltb (Rabs (dot n p - d)) (1 / 1000), 0).
Proof.
  unfold IntersectLinePlane, EqualAbs. rewrite !Abs_R, !nlit_R. toG. rsimpl. replace (10000 / 1) with 10000 by lra. reflexivity.
Qed.
Lemma ILP_cases (n : pt) d (p u : pt) :
  (dot n u <> 0 /\ IntersectLinePlane n d p u = (true, (d - dot n p) / dot n u)) \/
  (Rabs (dot n u) <= 1 / 10000 /\ (dot n u = 0 \/ 10000 <= Rabs ((d - dot n p) / dot n u)) /\ IntersectLinePlane n d p u = (Rltb (Rabs (dot n p - d)) (1 / 1000), 0)).
Proof.
  rewrite ILP. set (c := dot n u). set (t := (d - dot n p) / c). destruct (Rltb_spec (1 / 10000) (Rabs c)) as [H|H].
  - left. split; [intros Z; rewrite Z, Rabs_R0 in H; lra|reflexivity].
  - destruct (Reqb_spec c 0) as [Z|Z]; cbn [negb andb].
    + right. split; [lra|]. split; [now left|reflexivity].
    + destruct (Rltb_spec (Rabs t) 10000) as [K|K]; [left; split; [exact Z|reflexivity]|right; split; [lra|]; split; [right; lra|reflexivity]].
Qed.
Lemma along_on P p u t : dot (pnormal P) u <> 0 -> (on_plane P (along p u t) <-> t = (pd P - dot (pnormal P) p) / dot (pnormal P) u).
Proof.
  intros N. unfold on_plane, along. rewrite dot_plus_r, dot_scale_r. split.
  - intros E. apply Rmult_eq_reg_r with (dot (pnormal P) u); [|exact N]. unfold Rdiv. rewrite Rmult_assoc, Rinv_l by exact N. lra.
  - intros ->. field. exact N.
Qed.
(** Away from the parallel tolerance the line meets the plane at exactly the reported parameter; exactly parallel, the result
    says whether the line lies within 1e-3 of the plane.  In between, a [true] is right unless t = 0 was substituted. *)
Theorem C41_line (P : plane R) (l : line R) : unitv (pnormal P) -> let '(hit, t) := Plane_IntersectsLine P l in
  (1 / 10000 < Rabs (dot (pnormal P) (ldir l)) -> hit = true /\ forall k, on_plane P (along (lpos l) (ldir l) k) <-> k = t) /\
  (dot (pnormal P) (ldir l) = 0 -> (hit = true <-> forall p, on_line l p -> Rabs (height P p) < 1 / 1000)) /\
  (hit = true -> Rabs (height P (along (lpos l) (ldir l) t)) < 1 / 1000) /\
  (hit = false -> forall k, on_plane P (along (lpos l) (ldir l) k) -> 10000 <= Rabs k).
Proof.
  intros U. unfold Plane_IntersectsLine. assert (HA : forall k, height P (along (lpos l) (ldir l) k) = height P (lpos l) + k * dot (pnormal P) (ldir l)) by (intros; unfold height, along; rewrite dot_plus_r, dot_scale_r; ring).
  destruct (ILP_cases (pnormal P) (pd P) (lpos l) (ldir l)) as [(N & ->)|(S & N & ->)]; set (t := (pd P - dot (pnormal P) (lpos l)) / dot (pnormal P) (ldir l)) in *.
  - split; [intros _; split; [reflexivity|intros k; now apply along_on]|]. split; [intros Z; contradiction|]. split; [|intros E; discriminate E].
    intros _. replace (height P (along (lpos l) (ldir l) t)) with 0; [rewrite Rabs_R0; lra|symmetry; apply height_zero; now apply along_on].
  - fold (height P (lpos l)). split; [intros C; lra|]. split; [|split].
    + intros Z. rewrite Rltb_true. split; [intros H p (k & ->); rewrite HA, Z, Rmult_0_r, Rplus_0_r; exact H|]. intros H. apply H. exists 0. now rewrite along_0.
    + rewrite Rltb_true, HA, Rmult_0_l, Rplus_0_r. exact (fun H => H).
    + rewrite Rltb_false. intros H k K. destruct N as [Z|N]; [exfalso|].
      * apply height_zero in K. rewrite HA, Z, Rmult_0_r, Rplus_0_r in K. rewrite K, Rabs_R0 in H. lra.
      * assert (Z : dot (pnormal P) (ldir l) <> 0). { intros Z. unfold t in N. rewrite Z in N. unfold Rdiv in N. rewrite Rinv_0, Rmult_0_r, Rabs_R0 in N. lra. }
        apply along_on in K; [|exact Z]. fold t in K. now rewrite K.
Qed.
Print Assumptions C41_line.
Theorem C41_ray (P : plane R) (r : ray R) : unitv (pnormal P) -> 1 / 10000 < Rabs (dot (pnormal P) (rdir r)) ->
  let '(hit, t) := Plane_IntersectsRay P r in
  (hit = true <-> exists p, on_ray r p /\ on_plane P p) /\ (hit = true -> 0 <= t /\ forall p, on_ray r p /\ on_plane P p <-> p = along (rpos r) (rdir r) t).
Proof.
  intros U C. assert (N : dot (pnormal P) (rdir r) <> 0) by (intros Z; rewrite Z, Rabs_R0 in C; lra). unfold Plane_IntersectsRay. rewrite ILP. rewrite (proj2 (Rltb_true _ _) C). cbn [andb]. rsimpl.
  set (t := (pd P - dot (pnormal P) (rpos r)) / dot (pnormal P) (rdir r)). rewrite Rleb_true. split.
  - split; [intros T; exists (along (rpos r) (rdir r) t); split; [now exists t|now apply along_on]|]. intros (p & (k & K & ->) & O). apply along_on in O; [|exact N]. fold t in O. lra.
  - intros T. split; [exact T|]. intros p. split; [intros [(k & K & ->) O]; apply along_on in O; [|exact N]; fold t in O; now rewrite O|].
    intros ->. split; [now exists t|now apply along_on].
Qed.
Print Assumptions C41_ray.
(** A segment longer than 1e-6: the fraction reported is where the plane cuts it. *)
Lemma ISeg (P : plane R) (s : segment R) : eps6 < Seg_Length s -> dot (pnormal P) (sdir s) <> 0 ->
  let k := (pd P - dot (pnormal P) (seg_a s)) / dot (pnormal P) (sdir s) in
  (Seg_Length s < 10000 -> 0 <= k <= 1 -> Plane_IntersectsSeg P s = (true, k)) /\
  (1 / 10000 < Rabs (dot (pnormal P) (Seg_Dir s)) -> snd (Plane_IntersectsSeg P s) = k /\ (fst (Plane_IntersectsSeg P s) = true <-> 0 <= k <= 1)).
Proof.
  intros L1 N k. unfold Plane_IntersectsSeg. set (L := Seg_Length s) in *. assert (E6 : 0 < eps6) by (unfold eps6; lra).
  assert (Dn : dot (pnormal P) (Seg_Dir s) = / L * dot (pnormal P) (sdir s)) by (rewrite (Seg_Dir_R s L1), dot_scale_r; reflexivity).
  assert (Nd : dot (pnormal P) (Seg_Dir s) <> 0) by (rewrite Dn; apply Rmult_integral_contrapositive; split; [apply Rinv_neq_0_compat; lra|exact N]).
  assert (Tk : (pd P - dot (pnormal P) (seg_a s)) / dot (pnormal P) (Seg_Dir s) = k * L) by (rewrite Dn; unfold k; field; split; [exact N|lra]).
  destruct (ILP_cases (pnormal P) (pd P) (seg_a s) (Seg_Dir s)) as [(_ & ->)|(S & [Z|B] & ->)]; [| |].
  - rewrite Tk. rsimpl. assert (Q : k * L / L = k) by (field; lra). rewrite Q. cbn [andb fst snd]. split.
    + intros L2 K. rewrite (proj2 (Rleb_true _ _)), (proj2 (Rleb_true _ _)) by nra. reflexivity.
    + intros _. split; [reflexivity|]. rewrite andb_true_iff, !Rleb_true. split; [intros [A B]; split; apply Rmult_le_reg_r with L; lra|]. intros K. split; nra.
  - contradiction.
  - rewrite Tk in B. split; [intros L2 K; exfalso; rewrite Rabs_pos_eq in B by nra; nra|]. intros C. lra.
Qed.
Theorem C41_segment (P : plane R) (s : segment R) : unitv (pnormal P) -> eps6 < dist (seg_a s) (seg_b s) -> 1 / 10000 < Rabs (dot (pnormal P) (Seg_Dir s)) ->
  let '(hit, t) := Plane_IntersectsSeg P s in
  (hit = true <-> exists p, on_segment s p /\ on_plane P p) /\ (hit = true -> 0 <= t <= 1 /\ forall p, on_segment s p /\ on_plane P p <-> p = along (seg_a s) (minus (seg_b s) (seg_a s)) t).
Proof.
  intros U L C. fold (sdir s). assert (N : dot (pnormal P) (sdir s) <> 0).
  { intros Z. rewrite (Seg_Dir_R s L) in C. fold (sdir s) in C. rewrite dot_scale_r, Z, Rmult_0_r, Rabs_R0 in C. lra. }
  destruct (ISeg P s L N) as [_ H]. specialize (H C). destruct (Plane_IntersectsSeg P s) as [hit t]. cbn [fst snd] in H. destruct H as [Et H]. set (k := (pd P - dot (pnormal P) (seg_a s)) / dot (pnormal P) (sdir s)) in *. subst t. split.
  - rewrite H. split; [intros K; exists (along (seg_a s) (sdir s) k); split; [now exists k|now apply along_on]|]. intros (p & (j & J & ->) & O). apply (along_on P (seg_a s) (sdir s) j N) in O. fold k in O. lra.
  - intros T. apply H in T. split; [exact T|]. intros p. split; [intros [(j & J & ->) O]; apply (along_on P (seg_a s) (sdir s) j N) in O; fold k in O; now rewrite O|].
    intros ->. split; [now exists k|now apply along_on].
Qed.
Print Assumptions C41_segment.
Definition w_seg2 : segment R := Seg (V3 0 0 0) (V3 10 0 0).
Lemma w_seg2_len : dist (seg_a w_seg2) (seg_b w_seg2) = 10.
Proof. rewrite dist_sqrt. unfold w_seg2, sqd. gunf. cbn. replace (_ + _) with (10 * 10) by ring. apply sqrt_square. lra. Qed.
Example C41_segment_witness : eps6 < dist (seg_a w_seg2) (seg_b w_seg2) /\ 1 / 10000 < Rabs (dot (pnormal w_plane) (Seg_Dir w_seg2)) /\
  1 / 10000 < Rabs (dot (pnormal w_plane) (V3 1 0 0)).
Proof.
  assert (L : eps6 < dist (seg_a w_seg2) (seg_b w_seg2)) by (rewrite w_seg2_len; unfold eps6; lra). split; [exact L|]. rewrite (Seg_Dir_R _ L), w_seg2_len. unfold dot, w_plane, w_seg2, scale, minus. cbn.
  split; rewrite Rabs_right; lra.
Qed.
(** The sign test for segments, and the tests for spheres, boxes and triangles: exactly when there is a common point. *)
Lemma convex_height (A : pt -> Prop) P a b : convex_set A -> A a -> A b -> height P a <= 0 <= height P b -> exists p, A p /\ on_plane P p.
Proof.
  intros C Aa Ab H. destruct (Req_dec (height P a) (height P b)) as [E|E]; [exists a; split; [exact Aa|apply height_zero; lra]|].
  set (k := - height P a / (height P b - height P a)). assert (K : 0 <= k <= 1).
  { unfold k. assert (0 < / (height P b - height P a)) by (apply Rinv_0_lt_compat; lra). split; [apply Rmult_le_pos; lra|]. apply Rmult_le_reg_r with (height P b - height P a); [lra|]. unfold Rdiv. rewrite Rmult_assoc, Rinv_l; lra. }
  exists (plus a (scale k (minus b a))). split; [now apply C|]. apply height_zero.
  replace (height P (plus a (scale k (minus b a)))) with (height P a + k * (height P b - height P a)) by (unfold height; rewrite dot_plus_r, dot_scale_r, dot_minus_r; ring). unfold k. field. lra.
Qed.
Lemma convex_tri t : convex_set (in_triangle t).
Proof.
  intros x y k (u & v & w & U & V & W & S & ->) (u' & v' & w' & U' & V' & W' & S' & ->) K. exists (u + k * (u' - u)), (v + k * (v' - v)), (w + k * (w' - w)).
  repeat split; try nra. gunf. apply vec_ext; cbn [vx vy vz]; ring.
Qed.
Lemma tri_corners t : in_triangle t (tri_a t) /\ in_triangle t (tri_b t) /\ in_triangle t (tri_c t).
Proof.
  split; [exists 1, 0, 0|split; [exists 0, 1, 0|exists 0, 0, 1]]; repeat split; try lra; gunf; apply vec_ext; cbn [vx vy vz]; ring.
Qed.
Lemma height_tri P t u v w : u + v + w = 1 -> height P (plus (scale u (tri_a t)) (plus (scale v (tri_b t)) (scale w (tri_c t)))) = u * height P (tri_a t) + v * height P (tri_b t) + w * height P (tri_c t).
Proof. intros S. unfold height. rewrite !dot_plus_r, !dot_scale_r. replace w with (1 - u - v) by lra. ring. Qed.
Theorem C41_segment_sign (P : plane R) (s : segment R) : Seg_IntersectsPlane s P = true <-> exists p, on_segment s p /\ on_plane P p.
Proof.
  unfold Seg_IntersectsPlane. change (@Plane_SignedDistance R Num_R) with height. rsimpl. rewrite Rleb_true. split.
  - intros H. assert (Sa : on_segment s (seg_a s)) by (exists 0; split; [lra|gunf; apply vec_ext; cbn [vx vy vz]; ring]). assert (Sb : on_segment s (seg_b s)) by (exists 1; split; [lra|gunf; apply vec_ext; cbn [vx vy vz]; ring]).
    destruct (Rle_or_lt (height P (seg_a s)) 0); destruct (Rle_or_lt (height P (seg_b s)) 0).
    + destruct (Req_dec (height P (seg_a s)) 0); [exists (seg_a s); split; [exact Sa|now apply height_zero]|]. exists (seg_b s). split; [exact Sb|apply height_zero; nra].
    + apply (convex_height _ P (seg_a s) (seg_b s) (convex_seg s)); [assumption|assumption|lra].
    + apply (convex_height _ P (seg_b s) (seg_a s) (convex_seg s)); [assumption|assumption|lra].
    + nra.
  - intros (p & (k & K & ->) & O). apply height_zero in O. revert O. replace (height P (plus (seg_a s) (scale k (minus (seg_b s) (seg_a s))))) with ((1 - k) * height P (seg_a s) + k * height P (seg_b s)) by (unfold height; rewrite dot_plus_r, dot_scale_r, dot_minus_r; ring).
    generalize (height P (seg_a s)) (height P (seg_b s)). intros x y O. destruct (Req_dec k 0) as [->|]; [replace x with 0 by lra; lra|].
    assert (k * (x * y) <= 0) by (replace (k * (x * y)) with (x * (k * y)) by ring; replace (k * y) with (- ((1 - k) * x)) by lra; nra). nra.
Qed.
Print Assumptions C41_segment_sign.
Lemma box_proj (b : aabb R) (n : pt) : box_ok b ->
  let c := AABB_CenterPoint b in let e := AABB_HalfSize b in let r := vx e * Rabs (vx n) + vy e * Rabs (vy n) + vz e * Rabs (vz n) in
  AABB_ProjectToAxis b n = (dot n c - r, dot n c + r).
Proof.
  intros (L1 & L2 & L3) c e r. unfold AABB_ProjectToAxis. rewrite !Abs_R. change (vmuls (vadd (minPoint b) (maxPoint b)) nhalf) with c.
  assert (Ee : vsub (maxPoint b) c = e). { unfold c, e, AABB_CenterPoint, AABB_HalfSize, AABB_Size. vunf. apply vec_ext; cbn [vx vy vz]; field. }
  rewrite Ee. clear Ee. toG. rsimpl. clearbody c. fold r. rewrite Rabs_pos_eq; [reflexivity|].
  assert (Q : 0 <= vx e /\ 0 <= vy e /\ 0 <= vz e) by (unfold e, AABB_HalfSize, AABB_Size; vunf; cbn [vx vy vz]; lra). destruct Q as (Q1 & Q2 & Q3).
  unfold r. pose proof (Rmult_le_pos _ _ Q1 (Rabs_pos (vx n))). pose proof (Rmult_le_pos _ _ Q2 (Rabs_pos (vy n))). pose proof (Rmult_le_pos _ _ Q3 (Rabs_pos (vz n))). lra.
Qed.
Theorem C41_sphere_box_triangle (P : plane R) (o : sphere R) (b : aabb R) (t : triangle R) : unitv (pnormal P) -> box_ok b ->
  (Plane_IntersectsSphere P o = true <-> exists p, in_sphere o p /\ on_plane P p) /\
  (Plane_IntersectsAABB P b = true <-> exists p, in_box b p /\ on_plane P p) /\
  (Plane_IntersectsTri P t = true <-> exists p, in_triangle t p /\ on_plane P p).
Proof.
  intros U Ob. split; [|split].
  - unfold Plane_IntersectsSphere, Plane_Distance. rewrite Abs_R. rsimpl. rewrite Rleb_true. change (Plane_SignedDistance P (spos o)) with (height P (spos o)). split.
    + intros H. exists (minus (spos o) (scale (height P (spos o)) (pnormal P))). split; [unfold in_sphere; rewrite dist_shift by exact U; exact H|]. apply height_zero. rewrite height_sub by exact U. ring.
    + intros (p & I & O). eapply Rle_trans; [apply (height_dist P _ p U O)|]. unfold in_sphere in I. rewrite dist_sym. exact I.
  - pose proof (C24_project_to_axis b (pnormal P) Ob) as H. rewrite (box_proj b (pnormal P) Ob) in H. cbv zeta beta iota in H. destruct H as (H1 & H2 & H3).
    pose proof (range_convex (pnormal P) (in_box b) _ _ (convex_box b) H1 H2 H3) as [L G]. specialize (G (pd P)).
    unfold Plane_IntersectsAABB. rewrite !Abs_R. toG. rsimpl. rewrite Rleb_true. unfold on_plane. rewrite <- G. split.
    + intros K. revert K. unfold Rabs. destruct Rcase_abs; lra.
    + intros K. apply Rabs_le. lra.
  - unfold Plane_IntersectsTri. change (@Plane_SignedDistance R Num_R) with height. rsimpl. rewrite orb_true_iff, !Rleb_true. destruct (tri_corners t) as (Ta & Tb & Tc). split.
    + assert (K : forall x y, in_triangle t x -> in_triangle t y -> height P x * height P y <= 0 -> exists p, in_triangle t p /\ on_plane P p).
      { intros x y X Y H. destruct (Rle_or_lt (height P x) 0); destruct (Rle_or_lt (height P y) 0).
        - destruct (Req_dec (height P x) 0); [exists x; split; [exact X|now apply height_zero]|]. exists y. split; [exact Y|apply height_zero; nra].
        - apply (convex_height _ P x y (convex_tri t)); [assumption|assumption|lra].
        - apply (convex_height _ P y x (convex_tri t)); [assumption|assumption|lra].
        - nra. }
      intros [H|H]; [exact (K _ _ Ta Tb H)|exact (K _ _ Ta Tc H)].
    + intros (p & (u & v & w & A & B & C & S & ->) & O). apply height_zero in O. rewrite height_tri in O by exact S.
      revert O. generalize (height P (tri_a t)) (height P (tri_b t)) (height P (tri_c t)). intros x y z O.
      destruct (Rle_or_lt (x * y) 0) as [|N1]; [now left|]. destruct (Rle_or_lt (x * z) 0) as [|N2]; [now right|exfalso].
      assert (x * (u * x + v * y + w * z) = 0) by (rewrite O; ring). assert (Z : x <> 0) by (intros ->; lra).
      assert (0 < x * x) by (apply Rsqr_pos_lt in Z; exact Z). assert (u * (x * x) + v * (x * y) + w * (x * z) = 0) by lra.
      pose proof (Rmult_le_pos u (x * x) A ltac:(lra)). pose proof (Rmult_le_pos v (x * y) B ltac:(lra)). pose proof (Rmult_le_pos w (x * z) C ltac:(lra)).
      assert (u = 0 /\ v = 0 /\ w = 0); [|lra]. repeat split; apply Rmult_eq_reg_r with (x * x); nra.
Qed.
Print Assumptions C41_sphere_box_triangle.
