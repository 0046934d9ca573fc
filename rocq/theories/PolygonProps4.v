(** Property C93 of polygons, over the reals: intersection with lines, rays and segments, containment of segments. *)
From Coq Require Import Reals List Bool Lra Lia Arith Classical.
From Verif Require Import Num NumR ScalarModel ScalarProofs Vec3Model Vec3Props Vec2Model Vec2Spec GeoTypes GeoSpec GeoLemmas AabbModel AabbSpec MatModel MatProofs MatProofs2 LineModel LineSpec LineProofs LineProps PlaneModel PlaneSpec PlaneProps PlaneProps2 SphereSpec
  Vec2Props HullSpec HullProofs HullProps2 PlaneTestProofs PolygonModel PolygonSpec PolygonProofs PolygonProps PolygonProps2 PolygonProps3.
Import ListNotations.
Open Scope R_scope.
Ltac Zify.zify_post_hook ::= idtac.

Lemma Line_GetPoint_R (l : line R) t : Line_GetPoint l t = GeoSpec.along (lpos l) (ldir l) t.
Proof. unfold Line_GetPoint, GeoSpec.along, plus, scale. vunf. apply vec_ext; cbn [vx vy vz]; rsimpl; ring. Qed.
Lemma Ray_GetPoint_R (l : ray R) t : Ray_GetPoint l t = GeoSpec.along (rpos l) (rdir l) t.
Proof. unfold Ray_GetPoint, GeoSpec.along, plus, scale. vunf. apply vec_ext; cbn [vx vy vz]; rsimpl; ring. Qed.
Lemma Seg_GetPoint_R (s : segment R) t : Seg_GetPoint s t = plus (seg_a s) (scale t (minus (seg_b s) (seg_a s))).
Proof. unfold Seg_GetPoint, minus, plus, scale. vunf. apply vec_ext; cbn [vx vy vz]; rsimpl; ring. Qed.
Section Facing.
  Context (o U V : pt) (FR : frame U V) (s : R) (S : s = 1 \/ s = -1).
  Lemma facing_unit : unitv (pnormal (facing o U V s)).
  Proof. unfold facing, unitv. cbn [pnormal]. rewrite dot_scale_l, dot_scale_r, (NN1 U V FR). destruct S as [ -> | -> ]; ring. Qed.
  Lemma facing_height q h : height (facing o U V s) (plus (embed o U V q) (scale h (cross U V))) = s * h.
  Proof.
    unfold height, facing. cbn [pnormal pd]. rewrite <- dot_minus_r. rewrite dot_scale_l.
    replace (minus (plus (embed o U V q) (scale h (cross U V))) o) with (plus (dir U V q) (scale h (cross U V))) by (unfold embed, dir, minus, plus, scale; apply vec_ext; cbn [vx vy vz]; ring). rewrite dot_plus_r, dot_scale_r, (N_dir U V), (NN1 U V FR). ring.
  Qed.
  Lemma facing_on q : on_plane (facing o U V s) (embed o U V q).
  Proof. apply height_zero. replace (embed o U V q) with (plus (embed o U V q) (scale 0 (cross U V))) by (unfold plus, scale; apply vec_ext; cbn [vx vy vz]; ring). rewrite facing_height. ring. Qed.
  Lemma facing_point x : on_plane (facing o U V s) x -> exists q, x = embed o U V q.
  Proof.
    intros H. destruct (space_point U V x o FR) as (q & h & ->). exists q. apply height_zero in H. rewrite facing_height in H. assert (h = 0) by (destruct S as [ -> | -> ]; lra). subst h. unfold plus, scale. apply vec_ext; cbn [vx vy vz]; ring.
  Qed.
End Facing.
(** Near the polygon: within sqrt(1e-5) of the plane and, in the plane, within 2e-4 of the hull of the vertices. *)
Definition near_polygon (o U V : pt) (qs : list p2) (x : pt) : Prop := exists q h, x = plus (embed o U V q) (scale h (cross U V)) /\ h * h <= 1 / 100000 /\ exists y, in_hull2 qs y /\ dst q y <= 1 / 5000.
(** A reported intersection is a point of the line (ray, segment) near the polygon; a line crossing the plane of a convex polygon at least 2e-4
    inside all its edges, at an angle with sine above 1e-4, is reported. *)
Theorem C93_line (o U V : pt) (q0 q1 : p2) (rest : list p2) (l : line R) : let qs := q0 :: q1 :: rest in frame U V -> spans qs -> eps6 < dst q0 q1 ->
  (Poly_IntersectsLine (map (embed o U V) qs) l = true -> exists x, LineSpec.on_line l x /\ near_polygon o U V qs x) /\
  (ccw_polygon qs -> 1 / 10000 < Rabs (dot (cross U V) (ldir l)) -> forall q, LineSpec.on_line l (embed o U V q) -> deep_inside qs q (1 / 5000) -> Poly_IntersectsLine (map (embed o U V) qs) l = true).
Proof.
  intros qs FR SP L. destruct (setup o U V q0 q1 rest FR SP L) as (s & S & S1 & UE & PL & BU & BV & _). fold qs in PL, BU, BV. unfold Poly_IntersectsLine. rewrite PL.
  pose proof (C41_line (facing o U V s) l (facing_unit o U V FR s S)) as G. destruct (Plane_IntersectsLine (facing o U V s) l) as [hit t]. split.
  - intros H. destruct hit; [|discriminate]. exists (Line_GetPoint l t). split; [exists t; apply Line_GetPoint_R|]. destruct (C91_sound o U V q0 q1 rest _ _ FR SP L H) as (q & h & E & H1 & Y & _). exists q, h. split; [exact E|]. split; [|exact Y]. revert H1. rsimpl. intros H1. exact H1.
  - intros CCW TR q (k & K) D. destruct G as (G & _). cbn [facing pnormal] in G. rewrite dot_scale_l, Rabs_mult in G. replace (Rabs s) with 1 in G by (destruct S as [ -> | -> ]; [now rewrite Rabs_R1|rewrite Rabs_left; lra]). destruct G as (-> & G); [lra|].
    assert (k = t) by (apply G; rewrite <- K; apply (facing_on o U V FR)). subst k. rewrite Line_GetPoint_R, <- K. replace (embed o U V q) with (plus (embed o U V q) (scale 0 (cross U V))) by (unfold plus, scale; apply vec_ext; cbn [vx vy vz]; ring).
    apply (C91_complete o U V q0 q1 rest q 0 _ FR SP L CCW); [rsimpl; lra|]. now left.
Qed.
Theorem C93_ray (o U V : pt) (q0 q1 : p2) (rest : list p2) (r : ray R) : let qs := q0 :: q1 :: rest in frame U V -> spans qs -> eps6 < dst q0 q1 ->
  (Poly_IntersectsRay (map (embed o U V) qs) r = true -> exists x, LineSpec.on_ray r x /\ near_polygon o U V qs x) /\
  (ccw_polygon qs -> 1 / 10000 < Rabs (dot (cross U V) (rdir r)) -> forall q, LineSpec.on_ray r (embed o U V q) -> deep_inside qs q (1 / 5000) -> Poly_IntersectsRay (map (embed o U V) qs) r = true).
Proof.
  intros qs FR SP L. destruct (setup o U V q0 q1 rest FR SP L) as (s & S & S1 & UE & PL & BU & BV & _). fold qs in PL, BU, BV. unfold Poly_IntersectsRay. rewrite PL. split.
  - unfold Plane_IntersectsRay. destruct (IntersectLinePlane (pnormal (facing o U V s)) (pd (facing o U V s)) (rpos r) (rdir r)) as [hit t]. rsimpl. destruct hit; cbn [andb]; [|discriminate]. destruct (Rleb_spec 0 t) as [T|T]; [|discriminate]. intros H.
    exists (Ray_GetPoint r t). split; [exists t; split; [exact T|apply Ray_GetPoint_R]|]. destruct (C91_sound o U V q0 q1 rest _ _ FR SP L H) as (q & h & E & H1 & Y & _). exists q, h. auto.
  - intros CCW TR q (k & K0 & K) D. assert (TS : 1 / 10000 < Rabs (dot (pnormal (facing o U V s)) (rdir r))) by (cbn [facing pnormal]; rewrite dot_scale_l, Rabs_mult; replace (Rabs s) with 1 by (destruct S as [ -> | -> ]; [now rewrite Rabs_R1|rewrite Rabs_left; lra]); lra).
    pose proof (C41_ray (facing o U V s) r (facing_unit o U V FR s S) TS) as G. destruct (Plane_IntersectsRay (facing o U V s) r) as [hit t]. destruct G as (G1 & G2).
    assert (OR : LineSpec.on_ray r (embed o U V q)) by (exists k; auto). assert (HH : hit = true) by (apply G1; exists (embed o U V q); split; [exact OR|apply (facing_on o U V FR)]). subst hit. destruct (G2 eq_refl) as (_ & G3).
    assert (E : embed o U V q = GeoSpec.along (rpos r) (rdir r) t) by (apply G3; split; [exact OR|apply (facing_on o U V FR)]). rewrite Ray_GetPoint_R, <- E. replace (embed o U V q) with (plus (embed o U V q) (scale 0 (cross U V))) by (unfold plus, scale; apply vec_ext; cbn [vx vy vz]; ring).
    apply (C91_complete o U V q0 q1 rest q 0 _ FR SP L CCW); [rsimpl; lra|]. now left.
Qed.
Theorem C93_segment (o U V : pt) (q0 q1 : p2) (rest : list p2) (g : segment R) : let qs := q0 :: q1 :: rest in frame U V -> spans qs -> eps6 < dst q0 q1 -> 1 / 10000 <= Rabs (dot (cross U V) (minus (seg_b g) (seg_a g))) ->
  (Poly_IntersectsSeg (map (embed o U V) qs) g = true -> exists q y, AabbSpec.on_segment g (embed o U V q) /\ in_hull2 qs y /\ dst q y <= 1 / 5000) /\
  (ccw_polygon qs -> forall q, AabbSpec.on_segment g (embed o U V q) -> deep_inside qs q (1 / 5000) -> Poly_IntersectsSeg (map (embed o U V) qs) g = true).
Proof.
  intros qs FR SP L TR. destruct (setup o U V q0 q1 rest FR SP L) as (s & S & S1 & UE & PL & BU & BV & _). fold qs in PL, BU, BV. unfold Poly_IntersectsSeg. rewrite PL. cbv zeta. change (@Dot R Num_R) with dot. change (@vsub R Num_R) with minus. rewrite Abs_R.
  set (c := dot (pnormal (facing o U V s)) (minus (seg_b g) (seg_a g))). assert (TS : 1 / 10000 <= Rabs c) by (unfold c; cbn [facing pnormal]; rewrite dot_scale_l, Rabs_mult; replace (Rabs s) with 1 by (destruct S as [ -> | -> ]; [now rewrite Rabs_R1|rewrite Rabs_left; lra]); lra).
  rsimpl. rewrite (proj2 (Rltb_false _ _)) by exact TS. set (t := (pd (facing o U V s) - dot (pnormal (facing o U V s)) (seg_a g)) / c). assert (C0 : c <> 0) by (intros Z; rewrite Z, Rabs_R0 in TS; lra).
  assert (ON : forall k, on_plane (facing o U V s) (plus (seg_a g) (scale k (minus (seg_b g) (seg_a g)))) <-> k = t).
  { intros k. rewrite <- height_zero. unfold height. rewrite dot_plus_r, dot_scale_r. fold c. unfold t. split; [intros Z; apply (Rmult_eq_reg_r c); [|exact C0]; unfold Rdiv; rewrite Rmult_assoc, Rinv_l, Rmult_1_r by exact C0; lra|]. intros ->. field. exact C0. }
  split.
  - destruct (Rltb_spec t 0) as [T0|T0]; cbn [orb]; [discriminate|]. destruct (Rltb_spec 1 t) as [T1|T1]; [discriminate|]. intros H. rewrite Seg_GetPoint_R in H. destruct (facing_point o U V FR s S _ (proj2 (ON t) eq_refl)) as (q & Q).
    destruct (C91_sound o U V q0 q1 rest _ _ FR SP L H) as (q' & h & E & H1 & (y & Y & D) & _). exists q, y. split; [exists t; split; [lra|symmetry; exact Q]|]. split; [exact Y|].
    rewrite Q in E. assert (HZ : h = 0). { pose proof (facing_height o U V FR s q' h) as FH. rewrite <- E in FH. pose proof (facing_on o U V FR s q) as Z. apply height_zero in Z. rewrite Z in FH. destruct S as [ -> | -> ]; lra. } subst h.
    assert (E2 : embed o U V q = embed o U V q') by (rewrite E; unfold plus, scale; apply vec_ext; cbn [vx vy vz]; ring). assert (Z : dst q q' = 0) by (rewrite <- (emb_dist o U V FR), E2; unfold dist; replace (minus _ _) with origin by (unfold minus, origin; apply vec_ext; cbn [vx vy vz]; ring); unfold norm, dot, origin; cbn; rewrite Rmult_0_l, !Rplus_0_l; apply sqrt_0).
    apply dst_zero in Z. now subst q'.
  - intros CCW q (k & K & E) D. assert (k = t) by (apply ON; rewrite <- E; apply (facing_on o U V FR)). subst k. destruct (Rltb_spec t 0) as [T0|T0]; [lra|]. destruct (Rltb_spec 1 t) as [T1|T1]; [lra|]. cbn [orb]. rewrite Seg_GetPoint_R, <- E.
    replace (embed o U V q) with (plus (embed o U V q) (scale 0 (cross U V))) by (unfold plus, scale; apply vec_ext; cbn [vx vy vz]; ring). apply (C91_complete o U V q0 q1 rest q 0 _ FR SP L CCW); [lra|]. now left.
Qed.
(** A segment in the plane of the polygon is compared with edges that are not moved by the first vertex as the segment is: the square
    [10,12]x[10,12] does not intersect the segment from (9,11) to (13,11). *)
Theorem C93_in_plane_refuted : exists (qs : list p2) (g : segment R), ccw_polygon qs /\ Poly_IntersectsSeg (map (embed origin (V3 1 0 0) (V3 0 1 0)) qs) g = false /\ exists q, AabbSpec.on_segment g (embed origin (V3 1 0 0) (V3 0 1 0) q) /\ deep_inside qs q (1 / 2).
Proof.
  set (E := embed origin (V3 1 0 0) (V3 0 1 0)). exists [V2 10 10; V2 12 10; V2 12 12; V2 10 12], (Seg (V3 9 11 0) (V3 13 11 0)).
  assert (CCW : ccw_polygon [V2 10 10; V2 12 10; V2 12 12; V2 10 12]).
  { repeat split.
    + repeat constructor; cbn; intros K; repeat (destruct K as [K|K]; [apply (f_equal (fun v => (x2 v, y2 v))) in K; cbn in K; injection K; intros; lra|]); exact K.
    + intros a b c I J. cbn in I, J. repeat (destruct I as [I|I]; [injection I as <- <-; repeat (destruct J as [J|J]; [injection J; intros; subst; try (unfold turn, area2, mi; cbn; lra); lra|]); destruct J|]). destruct I.
    + intros a b v I J. cbn in I, J. repeat (destruct I as [I|I]; [injection I as <- <-; repeat (destruct J as [J|J]; [subst; unfold turn, area2, mi; cbn; lra|]); destruct J|]). destruct I. }
  assert (SP : spans [V2 10 10; V2 12 10; V2 12 12; V2 10 12]) by (exists (V2 10 10), (V2 12 10), (V2 12 12); split; [now exists [], [], [], [V2 10 12]|unfold turn, area2, mi; cbn; rewrite Rabs_pos_eq; lra]).
  assert (D2 : dst (V2 10 10) (V2 12 10) = 2) by (unfold dst, nrm, dt, mi; cbn [x2 y2]; apply sqrt_lem_1; lra).
  assert (LL : eps6 < dst (V2 10 10) (V2 12 10)) by (rewrite D2; unfold eps6; lra).
  split; [exact CCW|]. split.
  2: { exists (V2 11 11). split.
    - exists (1 / 2). split; [lra|]. unfold E, embed, origin, plus, scale, minus. apply vec_ext; cbn; lra.
    - assert (D4 : forall a b, dt (mi a b) (mi a b) = 4 -> dst a b = 2) by (intros a b Z; unfold dst, nrm; rewrite Z; apply sqrt_lem_1; lra).
      intros a b J. cbn in J. assert (DD : dst a b = 2) by (apply D4; repeat (destruct J as [J|J]; [injection J as <- <-; unfold dt, mi; cbn; lra|]); destruct J). rewrite DD. repeat (destruct J as [J|J]; [injection J as <- <-; unfold turn, area2, mi; cbn; lra|]); destruct J. }
  destruct (setup origin (V3 1 0 0) (V3 0 1 0) (V2 10 10) (V2 12 10) [V2 12 12; V2 10 12] xy_frame SP LL) as (s & S & S1 & UE & PL & BU & BV & C1). specialize (C1 CCW). subst s. rewrite D2 in BU, BV. fold E in PL, BU, BV.
  set (ps := map E ([V2 10 10; V2 12 10; V2 12 12; V2 10 12] : list p2)). change (Poly_IntersectsSeg ps (Seg (V3 9 11 0) (V3 13 11 0)) = false). change (Poly_PlaneCCW ps = Some (facing origin (V3 1 0 0) (V3 0 1 0) 1)) in PL.
  assert (BU' : Poly_BasisU ps = V3 1 0 0) by (apply (eq_trans BU); unfold dir, sc, mi, plus, scale; apply vec_ext; cbn; field).
  assert (BV' : Poly_BasisV ps = V3 0 1 0) by (apply (eq_trans BV); unfold dir, sc, mi, perp, plus, scale; apply vec_ext; cbn; field). clear BU BV.
  unfold Poly_IntersectsSeg. rewrite PL. cbv zeta. change (@Dot R Num_R) with dot. change (@vsub R Num_R) with minus. rewrite Abs_R. rsimpl.
  cbn [seg_a seg_b].
  replace (dot (pnormal (facing origin (V3 1 0 0) (V3 0 1 0) 1)) (minus (V3 13 11 0) (V3 9 11 0))) with 0 by (unfold facing, dot, minus, scale, cross; cbn; ring). rewrite Rabs_R0, (proj2 (Rltb_true 0 (1 / 10000))) by lra.
  assert (M : forall p : pt, Poly_MapTo2D ps p = Some (V2 (vx p - 10) (vy p - 10))).
  { intros p. change (Poly_MapTo2D ps p) with (Some (V2 (dot (minus p (E (V2 10 10))) (Poly_BasisU ps)) (dot (minus p (E (V2 10 10))) (Poly_BasisV ps)))). rewrite BU', BV'. do 2 f_equal; unfold dot, minus, E, embed, origin, plus, scale; cbn; ring. }
  rewrite !M. cbn [seg_a seg_b vx vy x2 y2].
  assert (F : forall q, flat ps (E q) = V3 (x2 q) (y2 q) 0) by (intros q; unfold flat; rewrite BU', BV'; change (@Dot R Num_R) with dot; apply vec_ext; unfold dot, E, embed, origin, plus, scale; cbn; ring).
  set (g := Seg _ _). change (Poly_Intersects2D ps g) with (if edgesHit (flat ps (E (V2 10 12))) (map (flat ps) ps) g then true else match Poly_MapFrom2D ps (V2 (9 - 10) (11 - 10)) with Some p => Poly_Contains ps p (nlit 1 100000) | None => false end).
  assert (EH : edgesHit (flat ps (E (V2 10 12))) (map (flat ps) ps) g = false).
  { unfold ps. cbn [map]. rewrite !F. cbn [x2 y2].
    assert (NO : forall a b : pt, a <> b -> 10 <= vx a -> 10 <= vx b -> Seg_IntersectsSeg (Seg a b) g (nlit 1 1000) = false).
    { intros a b NE A B. destruct (Seg_IntersectsSeg (Seg a b) g (nlit 1 1000)) eqn:K; [exfalso|reflexivity]. apply C43_segments_intersect in K; [|exact NE|unfold proper_seg, g; cbn; intros Z; apply (f_equal vx) in Z; cbn in Z; lra].
      destruct K as (u & v & (t & T & ->) & (t' & T' & ->) & D). revert D. rsimpl. intros D. 
      assert (DX : forall u v : pt, vx u - vx v <= dist u v) by (intros u v; unfold dist; apply Rle_trans with (Rabs (vx (minus u v))); [cbn; apply Rle_abs|]; unfold norm; rewrite <- sqrt_Rsqr_abs; apply sqrt_le_1_alt; unfold Rsqr, dot; nra).
      match type of D with dist ?u ?v <= _ => specialize (DX u v); assert (XU : 10 <= vx u) by (unfold plus, scale, minus; cbn [vx seg_a seg_b]; clear - A B T; nra); assert (XV : vx v <= 3) by (unfold g, plus, scale, minus; cbn [vx seg_a seg_b]; clear - T'; lra) end. lra. }
    cbn [edgesHit]. rewrite !NO; try reflexivity; cbn [vx]; try lra; intros Z; apply (f_equal (fun v => vx v + vy v)) in Z; cbn in Z; try lra; apply (f_equal (fun v => vx v)) in Z; cbn in Z; lra. }
  rewrite EH. assert (MF : Poly_MapFrom2D ps (V2 (9 - 10) (11 - 10)) = Some (plus (E (V2 9 11)) (scale 0 (cross (V3 1 0 0) (V3 0 1 0))))).
  { change (Some (vadd (vadd (E (V2 10 10)) (smulv (9 - 10) (Poly_BasisU ps))) (smulv (11 - 10) (Poly_BasisV ps))) = Some (plus (E (V2 9 11)) (scale 0 (cross (V3 1 0 0) (V3 0 1 0))))). rewrite BU', BV'. f_equal. cbn [x2 y2]. vunf. unfold E, embed, origin, plus, scale. apply vec_ext; cbn; rsimpl; ring. }
  rewrite MF. destruct (Poly_Contains ps _ _) eqn:K; [exfalso|reflexivity]. apply (C91_sound origin (V3 1 0 0) (V3 0 1 0) (V2 10 10) (V2 12 10) [V2 12 12; V2 10 12] _ _ xy_frame SP LL) in K. destruct K as (q & h & EQ & _ & (y & Y & D) & _).
  assert (QX : x2 q = 9) by (apply (f_equal vx) in EQ; unfold E, embed, origin, plus, scale, cross in EQ; cbn in EQ; lra).
  assert (YX : 10 <= x2 y) by (apply (Y (fun z => 10 <= x2 z)); [intros a b t T A B; unfold pl, sc, mi; cbn [x2]; nra|intros v I; cbn in I; repeat (destruct I as [<-|I]; [cbn; lra|]); destruct I]).
  assert (DX : x2 y - x2 q <= dst q y) by (unfold dst; apply Rle_trans with (Rabs (x2 (mi q y))); [cbn; rewrite Rabs_minus_sym; apply Rle_abs|]; unfold nrm; rewrite <- sqrt_Rsqr_abs; apply sqrt_le_1_alt; unfold Rsqr, dt; nra). lra.
Qed.
(** A contained segment has its ends within the thickness of the plane and its projection within 2e-4 of the hull of the vertices; for a convex
    polygon a segment with its ends within the thickness of the plane and more than 1e-3 inside all edges is contained. *)
Lemma deep_far (a b q : p2) k : 0 <= k <= 1 -> 0 < dst a b -> turn a b q / dst a b <= dst q (pl a (sc k (mi b a))).
Proof.
  intros K D. set (z := pl a (sc k (mi b a))). apply (Rmult_le_reg_r (dst a b)); [exact D|]. unfold Rdiv. rewrite Rmult_assoc, Rinv_l, Rmult_1_r by lra. apply Rle_trans with (Rabs (turn a b q)); [apply Rle_abs|].
  unfold dst, nrm. rewrite <- sqrt_mult by (unfold dt; nra). rewrite <- sqrt_Rsqr_abs. apply sqrt_le_1_alt. unfold Rsqr.
  set (u := mi a b). set (v := mi q z). assert (E : turn a b q = - area2 u v) by (unfold turn, area2, u, v, z, mi, pl, sc; cbn [x2 y2]; ring). rewrite E. unfold area2, dt. clearbody u v. clear. pose proof (Rle_0_sqr (x2 u * x2 v + y2 u * y2 v)) as Q. unfold Rsqr in Q. nra.
Qed.
Theorem C93_contains_segment (o U V : pt) (q0 q1 : p2) (rest : list p2) (qa qb : p2) (ha hb th : R) : let qs := q0 :: q1 :: rest in let g := Seg (plus (embed o U V qa) (scale ha (cross U V))) (plus (embed o U V qb) (scale hb (cross U V))) in frame U V -> spans qs -> eps6 < dst q0 q1 ->
  (Poly_ContainsSeg (map (embed o U V) qs) g th = true -> Rabs ha <= th /\ Rabs hb <= th /\ forall k, 0 <= k <= 1 -> exists y, in_hull2 qs y /\ dst (pl qa (sc k (mi qb qa))) y <= 1 / 5000) /\
  (ccw_polygon qs -> Rabs ha <= th -> Rabs hb <= th -> qa <> qb -> deep_inside qs qa (1 / 1000) -> deep_inside qs qb (1 / 1000) -> Poly_ContainsSeg (map (embed o U V) qs) g th = true).
Proof.
  intros qs g FR SP L. destruct (setup o U V q0 q1 rest FR SP L) as (s & S & S1 & UE & PL & _). fold qs in PL. set (ps := map (embed o U V) qs) in *.
  assert (LEN : (3 <= length qs)%nat) by (destruct SP as (a & b & c & (l1 & l2 & l3 & l4 & E) & _); fold qs in E; rewrite E; rewrite !app_length; cbn; rewrite !app_length; cbn; rewrite !app_length; cbn; lia).
  assert (AS : Rabs s = 1) by (destruct S as [ -> | -> ]; [apply Rabs_R1|rewrite Rabs_left; lra]).
  assert (HD : forall q h, Plane_Distance (facing o U V s) (plus (embed o U V q) (scale h (cross U V))) = Rabs h).
  { intros q h. unfold Plane_Distance. rewrite Abs_R. change (Plane_SignedDistance (facing o U V s) (plus (embed o U V q) (scale h (cross U V)))) with (height (facing o U V s) (plus (embed o U V q) (scale h (cross U V)))). rewrite (facing_height o U V FR), Rabs_mult, AS. ring. }
  assert (PJ : forall q h, Plane_Project (facing o U V s) (plus (embed o U V q) (scale h (cross U V))) = embed o U V q).
  { intros q h. rewrite Project_R, (facing_height o U V FR). cbn [facing pnormal]. rewrite scale_scale. replace (s * h * s) with (s * s * h) by ring. rewrite S1. unfold minus, plus, scale. apply vec_ext; cbn [vx vy vz]; ring. }
  assert (Z0 : forall q, embed o U V q = plus (embed o U V q) (scale 0 (cross U V))) by (intros q; unfold plus, scale; apply vec_ext; cbn [vx vy vz]; ring).
  assert (PJ0 : forall q, Plane_Project (facing o U V s) (embed o U V q) = embed o U V q) by (intros q; rewrite (Z0 q) at 1; apply PJ).
  assert (F : Poly_ContainsSeg ps g th = (if Rltb th (Rabs ha) || Rltb th (Rabs hb) then false else if negb (Poly_Contains ps (embed o U V qa) (1 / 100000)) || negb (Poly_Contains ps (embed o U V qb) (1 / 100000)) then false else
    forallb (fun e => negb (Seg_IntersectsSeg (Plane_ProjectSeg (facing o U V s) e) (Seg (embed o U V qa) (embed o U V qb)) (1 / 1000))) (Poly_Edges ps))).
  { assert (F : Poly_ContainsSeg ps g th = match Poly_PlaneCCW ps with Some P => if Rltb th (Plane_Distance P (seg_a g)) || Rltb th (Plane_Distance P (seg_b g)) then false
        else let l := Plane_ProjectSeg P g in if negb (Poly_Contains ps (seg_a l) (nlit 1 100000)) || negb (Poly_Contains ps (seg_b l) (nlit 1 100000)) then false else forallb (fun e => negb (Seg_IntersectsSeg (Plane_ProjectSeg P e) l (nlit 1 1000))) (Poly_Edges ps) | None => false end).
    { unfold ps, qs in *. destruct rest as [|z r]; [cbn in LEN; lia|reflexivity]. }
    rewrite F, PL. cbv zeta. unfold Plane_ProjectSeg at 1 2 4. cbn [seg_a seg_b g]. rewrite !HD, !PJ. rsimpl. reflexivity. }
  rewrite F. clear F. split.
  - destruct (Rltb_spec th (Rabs ha)) as [A|A]; cbn [orb]; [discriminate|]. destruct (Rltb_spec th (Rabs hb)) as [B|B]; [discriminate|]. destruct (Poly_Contains ps (embed o U V qa) _) eqn:CA; cbn [negb orb]; [|discriminate]. destruct (Poly_Contains ps (embed o U V qb) _) eqn:CB; cbn [negb]; [|discriminate]. intros _. split; [exact A|]. split; [exact B|].
    assert (NR : forall q, Poly_Contains ps (embed o U V q) (1 / 100000) = true -> exists y, in_hull2 qs y /\ dst q y <= 1 / 5000).
    { intros q C. destruct (C91_sound o U V q0 q1 rest _ _ FR SP L C) as (q' & h & EQ & _ & (y & Y & D) & _). exists y. split; [exact Y|].
      assert (HZ : h = 0). { pose proof (facing_height o U V FR s q' h) as FH. rewrite <- EQ in FH. pose proof (facing_on o U V FR s q) as Z. apply height_zero in Z. rewrite Z in FH. destruct S as [ -> | -> ]; lra. } subst h. rewrite <- Z0 in EQ.
      assert (Z : dst q q' = 0) by (rewrite <- (emb_dist o U V FR), EQ; unfold dist; replace (minus _ _) with origin by (unfold minus, origin; apply vec_ext; cbn [vx vy vz]; ring); unfold norm, dot, origin; cbn; rewrite Rmult_0_l, !Rplus_0_l; apply sqrt_0). apply dst_zero in Z. now subst q'. }
    intros k K. destruct (NR qa CA) as (ya & Ya & Da). destruct (NR qb CB) as (yb & Yb & Db). destruct (hull_near [qa; qb] [ya; yb] (1 / 5000) (pl qa (sc k (mi qb qa)))) as (y & Y & D).
    + intros v [<-|[<-|[]]]; [exists ya; split; [now left|exact Da]|exists yb; split; [right; now left|exact Db]].
    + intros C CV I. apply CV; [exact K|apply I; now left|apply I; right; now left].
    + exists y. split; [|exact D]. intros C CV I. apply (Y C CV). intros v [<-|[<-|[]]]; [now apply Ya|now apply Yb].
  - intros CCW A B NE DA DB. rewrite (proj2 (Rltb_false _ _)) by exact A. rewrite (proj2 (Rltb_false _ _)) by exact B. cbn [orb].
    assert (E0 : forall a b, In (a, b) (polygon_edges qs) -> 0 < dst a b).
    { intros a b I. destruct (Rle_lt_or_eq_dec 0 (dst a b) (dst_pos a b)) as [K|K]; [exact K|exfalso]. symmetry in K. apply dst_zero in K. subst b. specialize (DA a a I). unfold turn, area2, mi in DA. cbn [x2 y2] in DA. pose proof (dst_pos a a). lra. }
    assert (IN : forall q, deep_inside qs q (1 / 1000) -> Poly_Contains ps (embed o U V q) (1 / 100000) = true).
    { intros q D. rewrite Z0. apply (C91_complete o U V q0 q1 rest q 0 _ FR SP L CCW); [lra|]. left. intros a b I. pose proof (D a b I). pose proof (E0 a b I). lra. }
    rewrite !IN by assumption. cbn [negb orb]. apply forallb_forall. intros e I. unfold ps in I. rewrite Poly_Edges_R in I. apply in_map_iff in I as ((a & b) & <- & I). apply edges_rot_in in I. cbn [fst snd]. unfold Plane_ProjectSeg. cbn [seg_a seg_b]. rewrite !PJ0.
    destruct (Seg_IntersectsSeg _ _ _) eqn:K; [exfalso|reflexivity].
    assert (INJ : forall u v, u <> v -> embed o U V u <> embed o U V v).
    { intros u v N EQ. apply N, dst_zero. rewrite <- (emb_dist o U V FR), EQ. unfold dist. replace (minus _ _) with origin by (unfold minus, origin; apply vec_ext; cbn [vx vy vz]; ring). unfold norm, dot, origin. cbn. rewrite Rmult_0_l, !Rplus_0_l. apply sqrt_0. }
    apply C43_segments_intersect in K; [|apply INJ; intros ->; pose proof (E0 b b I) as Q; rewrite (proj2 (dst_zero b b) eq_refl) in Q; lra|apply INJ; exact NE].
    destruct K as (u & v & (t & T & ->) & (t' & T' & ->) & D). cbn [seg_a seg_b] in D.
    assert (CB : forall c d k, plus (embed o U V c) (scale k (minus (embed o U V d) (embed o U V c))) = embed o U V (pl c (sc k (mi d c)))) by (intros c d k; unfold embed, pl, sc, mi, plus, scale, minus; apply vec_ext; cbn [vx vy vz x2 y2]; ring).
    rewrite !CB, (emb_dist o U V FR), dst_sym in D. pose proof (deep_far a b (pl qa (sc t' (mi qb qa))) t T (E0 a b I)) as DF.
    assert (TT : 1 / 1000 * dst a b < turn a b (pl qa (sc t' (mi qb qa)))).
    { replace (turn a b (pl qa (sc t' (mi qb qa)))) with ((1 - t') * turn a b qa + t' * turn a b qb) by (unfold turn, area2, pl, sc, mi; cbn [x2 y2]; ring). pose proof (DA a b I) as X. pose proof (DB a b I) as Y. set (x := turn a b qa) in *. set (y := turn a b qb) in *. set (m := 1 / 1000 * dst a b) in *. clearbody x y m. clear - X Y T'. assert (0 <= t' * (y - m)) by nra. assert (0 <= (1 - t') * (x - m)) by nra. destruct (Rle_lt_dec t' (1 / 2)); [assert (0 < (1 - t') * (x - m)) by nra; lra|assert (0 < t' * (y - m)) by nra; lra]. }
    assert (1 / 1000 < turn a b (pl qa (sc t' (mi qb qa))) / dst a b); [|lra]. pose proof (E0 a b I). apply (Rmult_lt_reg_r (dst a b)); [assumption|]. unfold Rdiv at 2. rewrite Rmult_assoc, Rinv_l, Rmult_1_r by lra. exact TT.
Qed.
Example C93_witness : LineSpec.on_line (Ln (V3 1 1 5) (V3 0 0 1)) (embed origin (V3 1 0 0) (V3 0 1 0) (V2 1 1)) /\ 1 / 10000 < Rabs (dot (cross (V3 1 0 0) (V3 0 1 0)) (V3 0 0 1)) /\ deep_inside [V2 0 0; V2 2 0; V2 2 2; V2 0 2] (V2 1 1) (1 / 1000).
Proof.
  split; [exists (-5); unfold embed, origin, GeoSpec.along, plus, scale; apply vec_ext; cbn; ring|]. split; [unfold dot, cross; cbn; rewrite Rabs_pos_eq; lra|].
  assert (D4 : forall a b, dt (mi a b) (mi a b) = 4 -> dst a b = 2) by (intros a b Z; unfold dst, nrm; rewrite Z; apply sqrt_lem_1; lra).
  intros a b J. cbn in J. assert (DD : dst a b = 2) by (apply D4; repeat (destruct J as [J|J]; [injection J as <- <-; unfold dt, mi; cbn; lra|]); destruct J). rewrite DD. repeat (destruct J as [J|J]; [injection J as <- <-; unfold turn, area2, mi; cbn; lra|]); destruct J.
Qed.
Print Assumptions C93_line.
Print Assumptions C93_ray.
Print Assumptions C93_segment.
Print Assumptions C93_contains_segment.
