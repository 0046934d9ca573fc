(** C103: 2D triangles. *)
From Coq Require Import Reals Lra Psatz Bool List.
From Verif Require Import Num NumR ScalarModel ScalarProofs Vec3Model Vec2Model GeoTypes MatModel AabbModel LineModel RotModel PlaneModel TriangleModel GeoSpec AabbSpec LineSpec TriangleSpec
  GeoLemmas LineProofs LineProps TriangleProps TriangleProps7 Vec2Spec Vec2Props Flat2Model Flat2Spec Flat2Props.
Import ListNotations.
Open Scope R_scope.

Lemma up_proper_tri t : proper_tri2 t -> proper_tri (upT t).
Proof.
  intros P u v E. unfold upT in E. cbn [tri_a tri_b tri_c] in E. rewrite !up_minus, !up_scale, up_plus in E. unfold proper_tri2 in P.
  set (x := mi (t2b t) (t2a t)) in *. set (y := mi (t2c t) (t2a t)) in *. clearbody x y. unfold up, origin in E. injection E as E1 E2. unfold pl, sc in E1, E2. cbn [x2 y2] in E1, E2. unfold area2 in P.
  assert (U : u * (x2 x * y2 y - y2 x * x2 y) = 0) by (transitivity ((u * x2 x + v * x2 y) * y2 y - (u * y2 x + v * y2 y) * x2 y); [ring|rewrite E1, E2; ring]).
  assert (V : v * (x2 x * y2 y - y2 x * x2 y) = 0) by (transitivity ((u * y2 x + v * y2 y) * x2 x - (u * x2 x + v * x2 y) * y2 x); [ring|rewrite E1, E2; ring]).
  apply Rmult_integral in U. apply Rmult_integral in V. tauto.
Qed.
Lemma up_closest_tri t p : Tri_ClosestPoint (upT t) (up p) = up (Tri2_ClosestPoint t p).
Proof.
  destruct t as [a b c]. unfold Tri_ClosestPoint, Tri2_ClosestPoint, upT. cbn [t2a t2b t2c]. autorewrite with up2.
  repeat match goal with |- (if ?x then _ else _) = _ => destruct x; [reflexivity|] end. reflexivity.
Qed.
Theorem C103_closest (t : tri2 R) (p : p2) : proper_tri2 t ->
  nearest2 (in_tri2 t) p (Tri2_ClosestPoint t p) /\ (in_tri2 t p <-> Tri2_ClosestPoint t p = p) /\
  distance2_is (in_tri2 t) (eq p) (Tri2_Distance t p) /\ Tri2_DistanceSq t p = Tri2_Distance t p * Tri2_Distance t p.
Proof.
  intros P. assert (N : nearest2 (in_tri2 t) p (Tri2_ClosestPoint t p)).
  { apply (up_nearest _ (in_triangle (upT t))); [apply up_tri|]. rewrite <- up_closest_tri. apply C47_point. now apply up_proper_tri. }
  split; [exact N|]. split; [|split].
  - destruct N as [I M]. split; [|intros <-; exact I]. intros H. specialize (M p H). assert (Z : dst p p = 0) by (rewrite <- up_dst; now apply dist_zero).
    apply up_inj. apply dist_zero. rewrite up_dst. rewrite Z in M. apply Rle_antisym; [exact M|apply dst_pos].
  - unfold Tri2_Distance. rewrite Distance2_R. destruct N as [I M]. split; [exists (Tri2_ClosestPoint t p), p; auto|]. intros a b A <-. now apply M.
  - unfold Tri2_DistanceSq, Tri2_Distance. now rewrite Distance2_R, DistanceSq2_R.
Qed.
Print Assumptions C103_closest.
(** What [BarycentricUVW] returns: the first two coordinates are twice the area of the triangle times the barycentric ones. *)
Definition bary2 (t : tri2 R) (u v w : R) : p2 := pl (sc u (t2a t)) (pl (sc v (t2b t)) (sc w (t2c t))).
Theorem C103_barycentric_actual (t : tri2 R) (u v w : R) : u + v + w = 1 ->
  let A := area2 (mi (t2b t) (t2a t)) (mi (t2c t) (t2a t)) in
  Tri2_BarycentricUVW t (bary2 t u v w) = V3 (A * u) (A * v) (1 - A * u - A * v) /\
  Tri2_BarycentricUV t (bary2 t u v w) = V2 (A * v) (1 - A * u - A * v).
Proof.
  intros E A. assert (W : w = 1 - u - v) by lra. subst w.
  assert (H : Tri2_BarycentricUVW t (bary2 t u v (1 - u - v)) = V3 (A * u) (A * v) (1 - A * u - A * v)).
  { unfold A. destruct t as [[ax ay] [bx by_] [cx cy]]. unfold Tri2_BarycentricUVW, TriArea2D, bary2, area2, pl, sc, mi. cbn [t2a t2b t2c x2 y2]. rsimpl. apply vec_ext; cbn [vx vy vz]; ring. }
  split; [exact H|]. unfold Tri2_BarycentricUV. now rewrite H.
Qed.
Print Assumptions C103_barycentric_actual.
(** They are barycentric coordinates only when twice the signed area is 1: Point(BarycentricUVW(p)) is not p in general. *)
Theorem C103_barycentric_refuted : exists (t : tri2 R) (p : p2), proper_tri2 t /\ in_tri2 t p /\
  let q := Tri2_BarycentricUVW t p in Tri2_Point3 t (vx q) (vy q) (vz q) <> p /\ Tri_BarycentricInside q = false.
Proof.
  exists (Tri2 (V2 0 0) (V2 4 0) (V2 0 4)), (V2 1 1). split; [unfold proper_tri2, area2, mi; cbn; lra|]. split.
  - exists (1 / 2), (1 / 4), (1 / 4). repeat (split; [lra|]). apply v2_ext; unfold pl, sc; cbn; field.
  - unfold Tri2_BarycentricUVW, TriArea2D, Tri2_Point3, Tri_BarycentricInside, add2, smul2. cbn [t2a t2b t2c x2 y2 vx vy vz]. rsimpl. split; [intros E; injection E; intros; lra|].
    destruct (Rleb_spec 0 ((1 - 4) * (0 - 4) - (4 - 0) * (1 - 0))); cbn [andb]; [|reflexivity].
    destruct (Rleb_spec 0 ((1 - 0) * (4 - 0) - (0 - 0) * (1 - 4))); cbn [andb]; [|reflexivity]. match goal with |- context [Rleb 0 ?x] => destruct (Rleb_spec 0 x) end; [lra|reflexivity].
Qed.
Print Assumptions C103_barycentric_refuted.
Theorem C103_unit_barycentric (t : tri2 R) (p : p2) : area2 (mi (t2b t) (t2a t)) (mi (t2c t) (t2a t)) = 1 ->
  let q := Tri2_BarycentricUVW t p in Tri2_Point3 t (vx q) (vy q) (vz q) = p /\ vx q + vy q + vz q = 1 /\ (Tri_BarycentricInside q = true <-> in_tri2 t p) /\
  (let uv := Tri2_BarycentricUV t p in Tri2_Point t (x2 uv) (y2 uv) = p).
Proof.
  intros A. destruct p as [px py]. set (p := V2 px py). set (q := Tri2_BarycentricUVW t p).
  assert (S : vx q + vy q + vz q = 1) by (unfold q, Tri2_BarycentricUVW; cbn [vx vy vz]; rsimpl; lra).
  assert (E : Tri2_Point3 t (vx q) (vy q) (vz q) = p).
  { unfold q. destruct t as [[ax ay] [bx by_] [cx cy]]. unfold area2, mi in A. cbn [t2a t2b t2c x2 y2] in A. unfold Tri2_Point3, Tri2_BarycentricUVW, TriArea2D, add2, smul2, p. cbn [t2a t2b t2c x2 y2 vx vy vz]. rsimpl.
    apply v2_ext; cbn [x2 y2].
    - assert (K : ((bx - ax) * (cy - ay) - (by_ - ay) * (cx - ax) - 1) * (px - cx) = 0) by (rewrite A; ring). lra.
    - assert (K : ((bx - ax) * (cy - ay) - (by_ - ay) * (cx - ax) - 1) * (py - cy) = 0) by (rewrite A; ring). lra. }
  split; [exact E|]. split; [exact S|]. split.
  - unfold Tri_BarycentricInside, EqualAbs. rsimpl. rewrite !andb_true_iff, !Rleb_true, Rltb_true, S, Abs_R, Rminus_diag_eq, Rabs_R0 by reflexivity. split.
    + intros [[[X Y] Z] _]. exists (vx q), (vy q), (vz q). repeat (split; [assumption|]). rewrite <- E at 1. apply v2_ext; unfold Tri2_Point3, add2, smul2, pl, sc; rsimpl; cbn; ring.
    + intros (u & v & w & U & V & W & SUM & EP). assert (H := proj1 (C103_barycentric_actual t u v w SUM)). unfold bary2 in H. rewrite <- EP, A in H. fold q in H. rewrite H. cbn [vx vy vz]. repeat split; lra.
  - cbv zeta. unfold Tri2_BarycentricUV. fold p. fold q. cbn [x2 y2]. rewrite <- E. apply v2_ext; unfold Tri2_Point, Tri2_Point3, add2, smul2, muls2, sub2; rsimpl; cbn [x2 y2]; replace (vx q) with (1 - vy q - vz q) by lra; ring.
Qed.
Print Assumptions C103_unit_barycentric.
Example C103_witness : proper_tri2 (Tri2 (V2 0 0) (V2 4 0) (V2 0 4)) /\ area2 (mi (V2 1 0) (V2 0 0)) (mi (V2 0 1) (V2 0 0)) = 1.
Proof. unfold proper_tri2, area2, mi. cbn. split; lra. Qed.
Definition corner2 (t : tri2 R) (p : p2) : Prop := p = t2a t \/ p = t2b t \/ p = t2c t.
Lemma corner2_in t p : corner2 t p -> in_tri2 t p.
Proof. intros [-> |[-> | ->]]; [exists 1, 0, 0|exists 0, 1, 0|exists 0, 0, 1]; repeat (split; [lra|]); apply v2_ext; unfold pl, sc; cbn; ring. Qed.
(** Corners, edges, points from coordinates, centroid, perimeter and area. *)
Theorem C103_parts (t : tri2 R) (u v w : R) : let '(Tri2 a b c) := t in
  (u + v + w = 1 -> Tri2_Point3 t u v w = bary2 t u v w /\ Tri2_Point t v w = bary2 t u v w) /\
  Tri2_Centroid t = bary2 t (1 / 3) (1 / 3) (1 / 3) /\
  Tri2_Perimeter t = dst a b + dst b c + dst c a /\
  (forall i, (i < 3)%nat -> exists p q, Tri2_Vertex t i = Some p /\ Tri2_Vertex t (Nat.modulo (i + 1) 3) = Some q /\ Tri2_Edge t i = Some (Seg2 p q)) /\
  Tri2_Vertex t 0 = Some a /\ Tri2_Vertex t 1 = Some b /\ Tri2_Vertex t 2 = Some c /\
  (forall i, (3 <= i)%nat -> Tri2_Vertex t i = None /\ Tri2_Edge t i = None) /\
  Tri2_Area2D a b c = area2 (mi b a) (mi c a) /\
  Tri2_UniqueEdgeDirections t = [mi b a; mi c a; mi c b].
Proof.
  destruct t as [a b c]. split; [|split; [|split; [|split; [|split; [reflexivity|split; [reflexivity|split; [reflexivity|split; [|split]]]]]]]].
  - intros E. replace u with (1 - v - w) by lra. unfold bary2. split; apply v2_ext; unfold Tri2_Point3, Tri2_Point, add2, smul2, muls2, sub2, pl, sc; rsimpl; cbn [x2 y2 t2a t2b t2c]; ring.
  - apply v2_ext; unfold Tri2_Centroid, bary2, add2, muls2, pl, sc; rewrite ?nlit_R; rsimpl; cbn [x2 y2 t2a t2b t2c]; field.
  - unfold Tri2_Perimeter. now rewrite !Distance2_R.
  - intros [|[|[|i]]] L; [| | |exfalso; Lia.lia]; cbn; do 2 eexists; repeat split; reflexivity.
  - intros [|[|[|i]]] L; [exfalso; Lia.lia..|split; reflexivity].
  - unfold Tri2_Area2D, area2, mi. rsimpl. cbn [x2 y2]. ring.
  - reflexivity.
Qed.
Print Assumptions C103_parts.
Theorem C103_extents (t : tri2 R) (d : p2) :
  (corner2 t (Tri2_ExtremePoint t d) /\ forall p, in_tri2 t p -> dt d p <= dt d (Tri2_ExtremePoint t d)) /\
  Tri2_ExtremePointDist t d = (Tri2_ExtremePoint t d, dt (Tri2_ExtremePoint t d) d) /\
  (let '(lo, hi) := Tri2_ProjectToAxis t d in (forall p, in_tri2 t p -> lo <= dt d p <= hi) /\ (exists p, corner2 t p /\ dt d p = lo) /\ (exists p, corner2 t p /\ dt d p = hi)) /\
  (forall p, in_tri2 t p -> in_box2 (Tri2_BoundingAABB t) p) /\
  (forall b, (forall p, in_tri2 t p -> in_box2 b p) -> forall p, in_box2 (Tri2_BoundingAABB t) p -> in_box2 b p).
Proof.
  assert (DOT : forall p, in_tri2 t p -> exists u v w, 0 <= u /\ 0 <= v /\ 0 <= w /\ u + v + w = 1 /\ dt d p = u * dt d (t2a t) + (v * dt d (t2b t) + w * dt d (t2c t))).
  { intros p (u & v & w & U & V & W & E & ->). exists u, v, w. repeat (split; [assumption|]). unfold dt, pl, sc. cbn [x2 y2]. ring. }
  split; [|split; [reflexivity|split; [|split]]].
  - unfold Tri2_ExtremePoint. cbn [fold_left snd fst]. change (@Dot2 R Num_R) with dt. cbv zeta. split.
    + unfold corner2. rsimpl. repeat (destruct (Rltb _ _); cbn [snd fst]); tauto.
    + intros p P. destruct (DOT p P) as (u & v & w & U & V & W & E & ->). set (x := dt d (t2a t)) in *. set (y := dt d (t2b t)) in *. set (z := dt d (t2c t)) in *.
      rsimpl. destruct (Rltb_spec x y) as [L|L]; cbn [snd fst]; [destruct (Rltb_spec y z) as [L2|L2]|destruct (Rltb_spec x z) as [L2|L2]]; cbn [snd fst]; fold x y z; nra.
  - unfold Tri2_ProjectToAxis. change (@Dot2 R Num_R) with dt. rewrite !Min_R, !Max_R. set (x := dt d (t2a t)) in *. set (y := dt d (t2b t)) in *. set (z := dt d (t2c t)) in *. split; [|split].
    + intros p P. destruct (DOT p P) as (u & v & w & U & V & W & E & ->). fold x y z. unfold Rmin, Rmax. repeat destruct Rle_dec; split; nra.
    + unfold corner2, Rmin. repeat destruct Rle_dec; eexists; (split; [|reflexivity]); tauto.
    + unfold corner2, Rmax. repeat destruct Rle_dec; eexists; (split; [|reflexivity]); tauto.
  - clear DOT. destruct t as [[ax ay] [bx by_] [cx cy]]. intros p (u & v & w & U & V & W & E & ->). unfold Tri2_BoundingAABB, vMin2, vMax2, in_box2. cbn [t2a t2b t2c x2 y2 min2 max2 pl sc]. rewrite !Max_R, !Min_R.
    assert (B : forall x y z, Rmin (Rmin x y) z <= u * x + (v * y + w * z) <= Rmax (Rmax x y) z) by (intros x y z; unfold Rmin, Rmax; repeat destruct Rle_dec; split; nra). split; apply B.
  - clear DOT. intros b H p. assert (A := H _ (corner2_in t _ (or_introl eq_refl))). assert (B := H _ (corner2_in t _ (or_intror (or_introl eq_refl)))). assert (C := H _ (corner2_in t _ (or_intror (or_intror eq_refl)))). clear H.
    unfold Tri2_BoundingAABB, vMin2, vMax2, in_box2 in *. cbn [x2 y2 min2 max2]. rewrite !Max_R, !Min_R. unfold Rmin, Rmax. repeat destruct Rle_dec; lra.
Qed.
Print Assumptions C103_extents.
(** [Transform] maps every point of the triangle by the upper left part of the matrix (and its translation). *)
Theorem C103_transforms (t : tri2 R) (o : p2) (m : mat3 R) (a : mat34 R) (b : mat4 R) (u v w : R) : u + v + w = 1 ->
  bary2 (Tri2_Translate t o) u v w = pl (bary2 t u v w) o /\
  bary2 (Tri2_Transform3 t m) u v w = Mul2D m (bary2 t u v w) /\
  bary2 (Tri2_Transform34 t a) u v w = TransformPos2 a (bary2 t u v w) /\
  bary2 (Tri2_Transform4 t b) u v w = MulPos2D4 b (bary2 t u v w) /\
  (forall p, up (Mul2D m p) = V3 (vx (mulv m (up p))) (vy (mulv m (up p))) 0) /\
  (forall p, TransformPos2 a p = V2 (vx (mulpos34 a (up p))) (vy (mulpos34 a (up p))) /\ MulPos2D34 a p = TransformPos2 a p) /\
  (forall p, MulPos2D4 b p = V2 (w0 (r40 b) * x2 p + w1 (r40 b) * y2 p + w3 (r40 b)) (w0 (r41 b) * x2 p + w1 (r41 b) * y2 p + w3 (r41 b))).
Proof.
  intros E. assert (w = 1 - u - v) by lra. subst w.
  split; [|split; [|split; [|split; [|split; [|split]]]]].
  1-4: apply v2_ext; unfold bary2, Tri2_Translate, Tri2_Transform3, Tri2_Transform34, Tri2_Transform4, Mul2D, MulPos2D34, TransformPos2, MulPos2D4, add2, pl, sc; rsimpl; cbn [x2 y2 t2a t2b t2c]; ring.
  - intros p. apply vec_ext; unfold up, Mul2D, mulv; vunf; rsimpl; cbn [vx vy vz x2 y2]; ring.
  - intros p. split; apply v2_ext; unfold up, MulPos2D34, TransformPos2, mulpos34; rsimpl; cbn [vx vy vz x2 y2]; ring.
  - intros p. apply v2_ext; unfold MulPos2D4; rsimpl; cbn [x2 y2]; ring.
Qed.
Print Assumptions C103_transforms.
Theorem C103_degenerate (t o : tri2 R) (e : R) : let near p q := Rabs (x2 p - x2 q) < e /\ Rabs (y2 p - y2 q) < e in
  (Tri2_IsDegenerate t e = true <-> near (t2a t) (t2b t) \/ near (t2a t) (t2c t) \/ near (t2b t) (t2c t)) /\
  (Tri2_Equals t o e = true <-> near (t2a t) (t2a o) /\ near (t2b t) (t2b o) /\ near (t2c t) (t2c o)).
Proof.
  intros near. unfold Tri2_IsDegenerate, Tri2_Equals, Equals2, EqualAbs. rsimpl. rewrite !orb_true_iff, !andb_true_iff, !Rltb_true, !Abs_R. unfold near. tauto.
Qed.
Print Assumptions C103_degenerate.
Theorem C103_degenerate_refuted : exists t : tri2 R, ~ proper_tri2 t /\ Tri2_IsDegenerate t (1 / 1000) = false.
Proof.
  exists (Tri2 (V2 0 0) (V2 1 0) (V2 2 0)). split; [unfold proper_tri2, area2, mi; cbn; lra|].
  unfold Tri2_IsDegenerate, Equals2, EqualAbs. cbn [t2a t2b t2c x2 y2]. rsimpl. rewrite !Abs_R.
  assert (A : forall x y, 1 / 1000 <= Rabs (x - y) -> Rltb (Rabs (x - y)) (1 / 1000) = false) by (intros; now apply Rltb_false).
  rewrite (A 0 1), (A 0 2), (A 1 2); [reflexivity|..]; unfold Rabs; destruct Rcase_abs; lra.
Qed.
Print Assumptions C103_degenerate_refuted.
(** Sampling. *)
Lemma up_dist_edge a b r : vadd (up a) (vdivs (vmuls (vsub (up b) (up a)) r) (Distance (up a) (up b))) = up (add2 a (divs2 (muls2 (sub2 b a) r) (Distance2 a b))).
Proof. rewrite up_dist. apply vec_ext; unfold up, add2, divs2, muls2, sub2; vunf; rsimpl; cbn [vx vy vz x2 y2]; ring. Qed.
Lemma up_edge t r : Tri_RandomPointOnEdge (upT t) r = up (Tri2_RandomPointOnEdge t r).
Proof.
  destruct t as [a b c]. unfold Tri_RandomPointOnEdge, Tri2_RandomPointOnEdge, upT. cbn [t2a t2b t2c]. cbv zeta. rewrite !up_dist_edge, !up_dist.
  repeat match goal with |- (if ?x then _ else _) = _ => destruct x; [reflexivity|] end. reflexivity.
Qed.
Theorem C103_random (t : tri2 R) (r : R) : let '(Tri2 a b c) := t in
  (forall p, in_tri2 t p <-> exists s k, 0 <= s <= 1 /\ 0 <= k <= 1 /\ Tri2_RandomPointInside t s k = p) /\
  (forall s k, 0 <= s -> 0 <= k -> s + k < 1 -> Tri2_RandomPointInside t s k = bary2 t (1 - s - k) s k) /\
  (proper_tri2 t -> 0 <= r <= Tri2_Perimeter t -> let p := Tri2_RandomPointOnEdge t r in
    (r <= dst a b -> on_seg2 (Seg2 a b) p /\ dst a p = r) /\ (dst a b <= r <= dst a b + dst b c -> on_seg2 (Seg2 b c) p /\ dst b p = r - dst a b) /\
    (dst a b + dst b c <= r -> on_seg2 (Seg2 c a) p /\ dst c p = r - dst a b - dst b c)).
Proof.
  assert (H := C80_random (upT t) r). destruct t as [a b c]. set (t := Tri2 a b c) in *. cbn [upT t t2a t2b t2c] in H. fold t in H. change (Tri (up a) (up b) (up c)) with (upT t) in H.
  destruct H as (H1 & H2 & H3).
  assert (IN : forall s k, Tri_RandomPointInside (upT t) s k = up (Tri2_RandomPointInside t s k)).
  { intros s k. unfold Tri_RandomPointInside, Tri2_RandomPointInside. destruct (if (s + k >=? n1)%num then _ else _) as [s1 t1]. unfold Tri_Point, Tri2_Point, upT. cbn [tri_a tri_b tri_c]. now autorewrite with up2. }
  split; [|split].
  - intros p. split.
    + intros P. assert (Q : in_triangle (upT t) (up p)) by (apply up_tri; eauto). apply H1 in Q as (s & k & S & K & E). rewrite IN in E. apply up_inj in E. eauto.
    + intros (s & k & S & K & E). assert (Q : in_triangle (upT t) (up p)) by (apply H1; exists s, k; rewrite IN, E; auto). apply up_tri in Q as (q & Q & E'). apply up_inj in E'. now rewrite E'.
  - intros s k S K L. apply up_inj. rewrite <- IN, H2 by assumption. unfold bary, bary2, upT. cbn [tri_a tri_b tri_c]. now rewrite !up_scale, !up_plus.
  - intros P RR. specialize (H3 (up_proper_tri t P)). assert (PE : Tri_Perimeter (upT t) = Tri2_Perimeter t) by (unfold Tri_Perimeter, Tri2_Perimeter, upT; cbn [tri_a tri_b tri_c]; now rewrite !up_dist).
    rewrite PE in H3. specialize (H3 RR). cbv zeta in *. rewrite up_edge, !up_dst in H3. set (p := Tri2_RandomPointOnEdge t r) in *.
    assert (SG : forall x y, on_segment (Seg (up x) (up y)) (up p) -> on_seg2 (Seg2 x y) p).
    { intros x y Q. apply (up_seg (Seg2 x y)) in Q as (q & Q & E). apply up_inj in E. now rewrite E. }
    destruct H3 as (A & B & C). split; [intros L; destruct (A L); auto|]. split; [intros L; destruct (B L); auto|intros L; destruct (C L); auto].
Qed.
Print Assumptions C103_random.
