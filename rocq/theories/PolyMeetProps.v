(** C113: convex polygons against spheres, capsules and line segments. *)
From Coq Require Import Reals List Bool Lra Lia Arith.
From Verif Require Import Num NumR ScalarModel ScalarProofs Vec3Model Vec3Props Vec2Model Vec2Spec GeoTypes GeoSpec GeoLemmas AabbModel AabbSpec MatModel MatProofs MatProofs2 LineModel LineSpec LineProofs LineProps PlaneModel PlaneSpec PlaneProps SphereSpec TriangleModel TriangleSpec TriangleProps TriangleProps2 TriangleProps4 CapsuleModel CapsuleProps CapsuleProps3
  Vec2Props HullSpec HullProofs HullProps2 PlaneTestProofs PolygonModel PolygonSpec PolygonProofs PolygonProps PolygonProps2 PolygonProps3 PolygonProps5 SphereProps PolyMeetModel.
Import ListNotations.
Open Scope R_scope.

(** The points of a convex polygon given by its outline in a frame of its plane. *)
Definition region (o U V : pt) (qs : list p2) (z : pt) : Prop := exists q, in_hull2 qs q /\ z = embed o U V q.
Section Meet.
  Variables (o U V : pt) (q0 q1 : p2) (rest : list p2).
  Hypothesis FR : frame U V.
  Hypothesis SP : spans (q0 :: q1 :: rest).
  Hypothesis L : eps6 < dst q0 q1.
  Hypothesis CCW : ccw_polygon (q0 :: q1 :: rest).
  Let E := embed o U V.
  Let ts := Poly_Triangulate (map (embed o U V) (q0 :: q1 :: rest)).
  Lemma ts_form t : In t ts -> exists a b c, t = Tri (embed o U V a) (embed o U V b) (embed o U V c) /\ 0 < turn a b c.
  Proof.
    intros I. destruct (C94_convex o U V q0 q1 rest FR SP L CCW) as (TR & _ & POS & _). unfold ts in I. rewrite TR in I. apply in_map_iff in I as (((a & b) & c) & <- & I). exists a, b, c. split; [reflexivity|now apply POS].
  Qed.
  Lemma ts_some : ts <> [].
  Proof.
    destruct (C94_convex o U V q0 q1 rest FR SP L CCW) as (_ & LT & _). fold ts in LT. intros Z. rewrite Z in LT.
    destruct SP as (a & b & c & (l1 & l2 & l3 & l4 & Q) & _). apply (f_equal (@length p2)) in Q. rewrite !app_length in Q. cbn [length] in Q, LT. rewrite !app_length in Q. cbn [length] in Q. rewrite !app_length in Q. cbn [length] in Q. lia.
  Qed.
  Lemma ts_proper t : In t ts -> proper_tri t.
  Proof.
    intros I. destruct (ts_form t I) as (a & b & c & -> & P). intros u v Q. cbn [tri_a tri_b tri_c] in Q. rewrite !(emb_minus o U V) in Q.
    assert (W : dir U V (pl (sc u (mi b a)) (sc v (mi c a))) = origin) by (rewrite <- Q; unfold dir, pl, sc, plus, scale; apply vec_ext; cbn [vx vy vz x2 y2]; ring).
    assert (N0 : dt (pl (sc u (mi b a)) (sc v (mi c a))) (pl (sc u (mi b a)) (sc v (mi c a))) = 0) by (rewrite <- (dir_dot U V FR), W; unfold dot, origin; cbn; ring).
    assert (Z : x2 (pl (sc u (mi b a)) (sc v (mi c a))) = 0 /\ y2 (pl (sc u (mi b a)) (sc v (mi c a))) = 0) by (unfold dt in N0; split; nra). destruct Z as (Z1 & Z2). unfold turn, area2, pl, sc, mi in *. cbn [x2 y2] in *.
    set (X := x2 b - x2 a) in *. set (Y := y2 b - y2 a) in *. set (P' := x2 c - x2 a) in *. set (Q' := y2 c - y2 a) in *. clearbody X Y P' Q'. clear - P Z1 Z2.
    split; apply (Rmult_eq_reg_r (X * Q' - Y * P')); try lra; [transitivity (Q' * (u * X + v * P') - P' * (u * Y + v * Q')); [ring|rewrite Z1, Z2; ring]|transitivity (X * (u * Y + v * Q') - Y * (u * X + v * P')); [ring|rewrite Z1, Z2; ring]].
  Qed.
  Lemma emb_bary a b c u v w : u + v + w = 1 -> plus (scale u (embed o U V a)) (plus (scale v (embed o U V b)) (scale w (embed o U V c))) = embed o U V (pl (sc u a) (pl (sc v b) (sc w c))).
  Proof.
    intros S. assert (W : w = 1 - u - v) by lra. subst w. unfold embed, pl, sc, plus, scale. apply vec_ext; cbn [vx vy vz x2 y2]; ring.
  Qed.
  Lemma ts_region z : (exists t, In t ts /\ in_triangle t z) <-> region o U V (q0 :: q1 :: rest) z.
  Proof.
    destruct (C94_convex o U V q0 q1 rest FR SP L CCW) as (_ & _ & _ & COV). fold ts in COV. split.
    - intros (t & I & Z). destruct (ts_form t I) as (a & b & c & ET & _). pose proof Z as (u & v & w & _ & _ & _ & S & EZ). rewrite ET in EZ. cbn [tri_a tri_b tri_c] in EZ. rewrite (emb_bary a b c u v w S) in EZ. eexists. split; [|exact EZ]. apply COV. exists t. split; [exact I|]. now rewrite <- EZ.
    - intros (q & Q & ->). now apply COV.
  Qed.
  (** Being in the enlarged triangle still means being in the plane. *)
  Lemma ts_plane t e z : In t ts -> in_enlarged t e z -> dot (cross U V) (minus z o) = 0.
  Proof.
    intros I (u & v & w & _ & _ & _ & S & ->). destruct (ts_form t I) as (a & b & c & -> & _). unfold bary. cbn [tri_a tri_b tri_c]. rewrite (emb_bary a b c u v w S). unfold embed, dot, cross, minus, plus, scale. cbn [vx vy vz]. ring.
  Qed.
  Lemma tri_enlarged t z : in_triangle t z -> in_enlarged t tol z.
  Proof. intros (u & v & w & A & B & C & S & ->). exists u, v, w. unfold tol. repeat split; try lra. Qed.
  Lemma meets_sphere (s : sphere R) : 0 <= srad s -> (Poly_IntersectsSphere (map (embed o U V) (q0 :: q1 :: rest)) s = true <-> exists z, region o U V (q0 :: q1 :: rest) z /\ in_sphere s z).
  Proof.
    intros RS. unfold Poly_IntersectsSphere. fold ts. rewrite existsb_exists. split.
    - intros (t & I & Q). destruct (C47_distances t origin s (Cap (Seg origin origin) 0) (ts_proper t I) RS) as (_ & _ & _ & H & _). apply H in Q as (x & X & Y). exists x. split; [|exact Y]. apply ts_region. now exists t.
    - intros (z & Z & Y). apply ts_region in Z as (t & I & X). exists t. split; [exact I|]. destruct (C47_distances t origin s (Cap (Seg origin origin) 0) (ts_proper t I) RS) as (_ & _ & _ & H & _). apply H. now exists z.
  Qed.
  (** The axis stays off the plane of the polygon. *)
  Definition off_plane (s : segment R) : Prop := forall x, on_segment s x -> dot (cross U V) (minus x o) <> 0.
  Lemma meets_capsule (c : capsule R) : proper_seg (cap_l c) -> 0 <= cap_r c -> off_plane (cap_l c) ->
    (Poly_IntersectsCapsule (map (embed o U V) (q0 :: q1 :: rest)) c = true <-> exists z, region o U V (q0 :: q1 :: rest) z /\ in_capsule c z).
  Proof.
    intros PS RC OFF. assert (G : forall t, In t ts -> (Capsule_IntersectsTri c t = true <-> exists p, in_capsule c p /\ in_triangle t p)).
    { intros t I. destruct (C50_intersects_triangle c t (ts_proper t I) PS RC) as (_ & H). apply H.
      - intros p P S. apply (OFF p S). apply (ts_plane t tol p I). now apply tri_enlarged.
      - right. intros p P S. apply (OFF p S). exact (ts_plane t tol p I P). }
    unfold Poly_IntersectsCapsule. fold ts. rewrite existsb_exists. split.
    - intros (t & I & Q). apply (G t I) in Q as (x & X & Y). exists x. split; [|exact X]. apply ts_region. now exists t.
    - intros (z & Z & Y). apply ts_region in Z as (t & I & X). exists t. split; [exact I|]. apply (G t I). now exists z.
  Qed.
  (** The axis pierces the polygon. *)
  Lemma meets_capsule_pierced (c : capsule R) x : proper_seg (cap_l c) -> 0 <= cap_r c -> on_segment (cap_l c) x -> region o U V (q0 :: q1 :: rest) x ->
    (forall t, In t ts -> tol < Rabs (tri_det t (minus (seg_b (cap_l c)) (seg_a (cap_l c))))) -> Poly_IntersectsCapsule (map (embed o U V) (q0 :: q1 :: rest)) c = true.
  Proof.
    intros PS RC S X D. apply ts_region in X as (t & I & X). unfold Poly_IntersectsCapsule. fold ts. apply existsb_exists. exists t. split; [exact I|].
    destruct (C50_intersects_triangle c t (ts_proper t I) PS RC) as (H & _). apply H; [now exists x|now apply D].
  Qed.
  Lemma best_pair : forall (l : list (pt * pt)) (b : pt * pt), let r := fst (fold_left (fun best pq => let d := DistanceSq (fst pq) (snd pq) in if nltb d (snd best) then (pq, d) else best) l (b, DistanceSq (fst b) (snd b))) in
    In r (b :: l) /\ forall x, In x (b :: l) -> dist (fst r) (snd r) <= dist (fst x) (snd x).
  Proof.
    assert (LE : forall x y : pt * pt, DistanceSq (fst x) (snd x) <= DistanceSq (fst y) (snd y) -> dist (fst x) (snd x) <= dist (fst y) (snd y)).
    { intros x y. rewrite !LineProofs.DistanceSq_R, !sqd_dist. pose proof (SphereProps.dist_pos (fst x) (snd x)). pose proof (SphereProps.dist_pos (fst y) (snd y)). nra. }
    induction l as [|c l IH]; intros b; cbn [fold_left]; [split; [now left|intros x [<-|[]]; apply Rle_refl]|]. cbv zeta. cbn [snd]. change (@nltb R Num_R) with Rltb. destruct (Rltb_spec (DistanceSq (fst c) (snd c)) (DistanceSq (fst b) (snd b))) as [K|K].
    - destruct (IH c) as (A & B). split; [right; exact A|]. intros x [<-|X]; [|now apply B]. eapply Rle_trans; [apply B; now left|]. apply LE. lra.
    - destruct (IH b) as (A & B). split; [destruct A as [A|A]; [now left|right; now right]|]. intros x [<-|[<-|X]]; [apply B; now left| |apply B; now right]. eapply Rle_trans; [apply B; now left|]. now apply LE.
  Qed.
  Lemma closest_seg (s : segment R) : proper_seg s -> off_plane s -> exists p q, Poly_ClosestPointSeg (map (embed o U V) (q0 :: q1 :: rest)) s = Some (p, q) /\ nearest_pair (region o U V (q0 :: q1 :: rest)) (on_segment s) p q.
  Proof.
    intros PS OFF. assert (G : forall t, In t ts -> nearest_pair (in_triangle t) (on_segment s) (fst (Tri_ClosestPointSeg t s)) (snd (Tri_ClosestPointSeg t s))).
    { intros t I. pose proof (C47_segment t s (ts_proper t I) PS) as H. destruct (Tri_ClosestPointSeg t s) as [p q]. destruct H as (_ & _ & H). apply H.
      - intros c C S. apply (OFF c S). apply (ts_plane t tol c I). now apply tri_enlarged.
      - right. intros c C S. apply (OFF c S). exact (ts_plane t tol c I C). }
    unfold Poly_ClosestPointSeg. fold ts. pose proof ts_some as NE. destruct (map (fun t => Tri_ClosestPointSeg t s) ts) as [|b l] eqn:M; [destruct ts; [contradiction|discriminate]|].
    destruct (best_pair l b) as (A & B). cbv zeta in A, B. set (r := fst (fold_left _ l _)) in *. destruct r as [p q] eqn:ER. exists p, q. split; [reflexivity|]. rewrite <- M in A, B. apply in_map_iff in A as (t & ET & I). pose proof (G t I) as (X & Y & Z). rewrite ET in X, Y, Z. cbn [fst snd] in *.
    split; [apply ts_region; now exists t|]. split; [exact Y|]. intros a' b' A' B'. apply ts_region in A' as (t' & I' & A'). destruct (G t' I') as (_ & _ & Z'). eapply Rle_trans; [|now apply (Z' a' b')]. apply (B (Tri_ClosestPointSeg t' s)). apply in_map_iff. now exists t'.
  Qed.
End Meet.
Theorem C113_sphere (o U V : pt) (q0 q1 : p2) (rest : list p2) (s : sphere R) : let qs := q0 :: q1 :: rest in frame U V -> spans qs -> eps6 < dst q0 q1 -> ccw_polygon qs -> 0 <= srad s ->
  (Poly_IntersectsSphere (map (embed o U V) qs) s = true <-> exists z, region o U V qs z /\ in_sphere s z).
Proof. intros qs FR SP L CCW RS. now apply meets_sphere. Qed.
Print Assumptions C113_sphere.
(** A capsule whose axis stays off the plane of the polygon: exact.  One whose axis crosses the polygon steeply enough is always found. *)
Theorem C113_capsule (o U V : pt) (q0 q1 : p2) (rest : list p2) (c : capsule R) : let qs := q0 :: q1 :: rest in frame U V -> spans qs -> eps6 < dst q0 q1 -> ccw_polygon qs -> proper_seg (cap_l c) -> 0 <= cap_r c ->
  ((forall x, on_segment (cap_l c) x -> dot (cross U V) (minus x o) <> 0) -> (Poly_IntersectsCapsule (map (embed o U V) qs) c = true <-> exists z, region o U V qs z /\ in_capsule c z)) /\
  ((exists x, on_segment (cap_l c) x /\ region o U V qs x) -> (forall t, In t (Poly_Triangulate (map (embed o U V) qs)) -> tol < Rabs (tri_det t (minus (seg_b (cap_l c)) (seg_a (cap_l c))))) -> Poly_IntersectsCapsule (map (embed o U V) qs) c = true).
Proof. intros qs FR SP L CCW PS RC. split; [intros OFF; now apply meets_capsule|]. intros (x & S & X) D. now apply (meets_capsule_pierced o U V q0 q1 rest FR SP L CCW c x). Qed.
Print Assumptions C113_capsule.
(** The closest pair of the polygon and a segment off its plane. *)
Theorem C113_closest_segment (o U V : pt) (q0 q1 : p2) (rest : list p2) (s : segment R) : let qs := q0 :: q1 :: rest in frame U V -> spans qs -> eps6 < dst q0 q1 -> ccw_polygon qs -> proper_seg s ->
  (forall x, on_segment s x -> dot (cross U V) (minus x o) <> 0) -> exists p q, Poly_ClosestPointSeg (map (embed o U V) qs) s = Some (p, q) /\ nearest_pair (region o U V qs) (on_segment s) p q.
Proof. intros qs FR SP L CCW PS OFF. now apply closest_seg. Qed.
Print Assumptions C113_closest_segment.
(** A square at height 5: a ball resting above it and touching it, one out of reach, and a segment beside it. *)
Example C113_witness :
  let sq := map (embed (V3 0 0 5) (V3 1 0 0) (V3 0 1 0)) [V2 0 0; V2 2 0; V2 2 2; V2 0 2] in
  Poly_IntersectsSphere sq (Sph (V3 1 1 6) 1) = true /\ Poly_IntersectsSphere sq (Sph (V3 1 1 7) 1) = false /\
  (exists p q, Poly_ClosestPointSeg sq (Seg (V3 0 0 6) (V3 5 5 8)) = Some (p, q) /\ dist p q <= 1) /\ Poly_IntersectsCapsule sq (Cap (Seg (V3 0 0 6) (V3 5 5 8)) 1) = true.
Proof.
  destruct C90_witness as (FR & SP & CCW & L). set (qs := [V2 0 0; V2 2 0; V2 2 2; V2 0 2]) in *. cbv zeta. set (z5 := V3 0 0 5 : pt).
  assert (D1 : forall x y a b : R, dist (V3 x y a) (V3 x y b) = Rabs (a - b)).
  { intros. unfold dist, norm. rewrite <- sqrt_Rsqr_abs. f_equal. unfold dot, minus, Rsqr. cbn. ring. }
  assert (HT : forall z, region z5 (V3 1 0 0) (V3 0 1 0) qs z -> vz z = 5) by (intros z (q & _ & ->); unfold embed, plus, scale; cbn; ring).
  assert (IN : region z5 (V3 1 0 0) (V3 0 1 0) qs (V3 1 1 5)).
  { exists (V2 1 1). split; [|unfold embed, plus, scale; apply vec_ext; cbn; ring]. intros A CV H. replace (V2 1 1) with (pl (V2 0 0) (sc (1 / 2) (mi (V2 2 2) (V2 0 0)))) by (unfold pl, sc, mi; apply v2_ext; cbn; field).
    apply CV; [lra|apply H; cbn; tauto|apply H; cbn; tauto]. }
  assert (IN0 : region z5 (V3 1 0 0) (V3 0 1 0) qs (V3 0 0 5)).
  { exists (V2 0 0). split; [|unfold embed, plus, scale; apply vec_ext; cbn; ring]. intros A CV H. apply H. now left. }
  assert (SA : on_segment (Seg (V3 0 0 6) (V3 5 5 8)) (V3 0 0 6)) by (exists 0; split; [lra|]; unfold plus, scale, minus; apply vec_ext; cbn; ring).
  assert (OFF : forall x, on_segment (Seg (V3 0 0 6) (V3 5 5 8)) x -> dot (cross (V3 1 0 0) (V3 0 1 0)) (minus x z5) <> 0).
  { intros x (k & K & ->). unfold dot, cross, minus, plus, scale, z5. cbn. lra. }
  assert (PS : proper_seg (Seg (V3 0 0 6) (V3 5 5 8))) by (intros Q; apply (f_equal vx) in Q; cbn in Q; lra).
  split; [|split; [|split]].
  - apply C113_sphere; try assumption; [cbn; lra|]. exists (V3 1 1 5). split; [exact IN|]. unfold in_sphere. cbn [spos srad]. rewrite D1. apply Rabs_le. lra.
  - destruct (Poly_IntersectsSphere _ _) eqn:Q; [|reflexivity]. exfalso. apply C113_sphere in Q; try assumption; [|cbn; lra]. destruct Q as (z & Z & S). apply HT in Z. unfold in_sphere, dist, norm in S. cbn [spos srad] in S.
    assert (M : 2 * 2 <= dot (minus (V3 1 1 7) z) (minus (V3 1 1 7) z)) by (unfold dot, minus; cbn [vx vy vz]; rewrite Z; pose proof (Rle_0_sqr (1 - vx z)) as S1; pose proof (Rle_0_sqr (1 - vy z)) as S2; unfold Rsqr in S1, S2; lra). apply sqrt_le_1_alt in M. rewrite sqrt_square in M; lra.
  - destruct (C113_closest_segment z5 (V3 1 0 0) (V3 0 1 0) (V2 0 0) (V2 2 0) [V2 2 2; V2 0 2] (Seg (V3 0 0 6) (V3 5 5 8)) FR SP L CCW PS OFF) as (p & q & Q & (_ & _ & N)). exists p, q. split; [exact Q|]. eapply Rle_trans; [apply (N _ _ IN0 SA)|]. rewrite D1. apply Rabs_le. lra.
  - assert (RC : 0 <= 1) by lra. destruct (C113_capsule z5 (V3 1 0 0) (V3 0 1 0) (V2 0 0) (V2 2 0) [V2 2 2; V2 0 2] (Cap (Seg (V3 0 0 6) (V3 5 5 8)) 1) FR SP L CCW PS RC) as (H & _). apply (proj2 (H OFF)). exists (V3 0 0 5). split; [exact IN0|]. exists (V3 0 0 6). split; [exact SA|]. rewrite D1. cbn [cap_r]. apply Rabs_le. lra.
Qed.
