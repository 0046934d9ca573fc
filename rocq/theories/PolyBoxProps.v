(** C114: convex polygons against boxes. *)
From Coq Require Import Reals List Bool Lra Lia Arith Classical Psatz.
From Verif Require Import GjkModel GjkSpec GjkProofs GjkProps Num NumR ScalarModel ScalarProofs Vec3Model Vec3Props Vec2Model Vec2Spec GeoTypes GeoSpec GeoLemmas AabbModel AabbSpec AabbProps2 MatModel MatProofs MatProofs2 LineModel LineProps PlaneModel PlaneSpec
  PlaneProps SphereSpec Vec2Props HullSpec HullProofs HullProps2 PlaneTestProofs PolygonModel PolygonSpec PolygonProofs PolygonProps PolygonProps2 PolygonProps3 PolygonProps4 PolyhedronProps6 PolyBoxModel PolyMeetProps.
Import ListNotations.
Ltac Zify.zify_post_hook ::= idtac.
Open Scope R_scope.

(** ** The outline of a convex polygon *)
Lemma edge_next vs b : In b vs -> exists c, In (b, c) (polygon_edges vs).
Proof.
  intros I. destruct vs as [|v r] eqn:EV; [contradiction|]. rewrite <- EV in *. unfold polygon_edges. rewrite EV. rewrite <- EV. apply in_split in I as (l1 & l2 & Q). destruct l2 as [|c l2].
  - exists v. replace (last vs v) with b by (rewrite Q; symmetry; apply last_last). rewrite EV. now left.
  - exists c. rewrite Q. apply path_tail. now left.
Qed.
Lemma edge_prev vs b : In b vs -> exists c, In (c, b) (polygon_edges vs).
Proof.
  intros I. destruct vs as [|v r] eqn:EV; [contradiction|]. unfold polygon_edges. rewrite <- EV in *. rewrite <- (path_snd vs (last vs v)) in I. apply in_map_iff in I as ([c b'] & <- & I). now exists c.
Qed.
Lemma edge_ends vs a b : In (a, b) (polygon_edges vs) -> In a vs /\ In b vs.
Proof.
  destruct vs as [|v r] eqn:EV; [contradiction|]. unfold polygon_edges. rewrite <- EV. intros I. apply path_in in I as (A & B). split; [|exact B]. destruct A as [->|A]; [|exact A].
  rewrite EV. destruct (exists_last (l := v :: r)) as (l & x & ->); [discriminate|]. rewrite last_last. apply in_or_app. right. now left.
Qed.
Definition on_edge (a b e : p2) : Prop := exists k, 0 <= k <= 1 /\ e = pl a (sc k (mi b a)).
Lemma line_param a b p : a <> b -> turn a b p = 0 -> exists t, p = pl a (sc t (mi b a)).
Proof.
  intros N T. destruct a as [ax ay], b as [bx by_], p as [px py]. unfold turn, area2, mi in T. cbn [x2 y2] in T. set (X := bx - ax) in *. set (Y := by_ - ay) in *.
  assert (P : X * X + Y * Y <> 0) by (intros Z; apply N; assert (X = 0) by nra; assert (Y = 0) by nra; f_equal; unfold X, Y in *; lra).
  exists (((px - ax) * X + (py - ay) * Y) / (X * X + Y * Y)). unfold pl, sc, mi. cbn [x2 y2]. fold X Y. f_equal; apply (Rmult_eq_reg_r (X * X + Y * Y)); try exact P.
  - transitivity (ax * (X * X + Y * Y) + ((px - ax) * X + (py - ay) * Y) * X - Y * (X * (py - ay) - Y * (px - ax))); [ring|]. rewrite T. field. exact P.
  - transitivity (ay * (X * X + Y * Y) + ((px - ax) * X + (py - ay) * Y) * Y + X * (X * (py - ay) - Y * (px - ax))); [ring|]. rewrite T. field. exact P.
Qed.
Section Outline.
  Variable qs : list p2.
  Hypothesis CCW : ccw_polygon qs.
  Hypothesis L3 : (3 <= length qs)%nat.
  Lemma edge_differs a b : In (a, b) (polygon_edges qs) -> a <> b.
  Proof. intros I ->. destruct (edge_ends _ _ _ I) as (_ & B). destruct (edge_next qs b B) as (c & C). destruct CCW as (_ & S & _). pose proof (S _ _ _ I C) as P. rewrite turn_stay in P. lra. Qed.
  (** A point of the polygon on the line of an edge is on the edge. *)
  Lemma hull_edge a b p : In (a, b) (polygon_edges qs) -> in_hull2 qs p -> turn a b p = 0 -> on_edge a b p.
  Proof.
    intros I H T. destruct (line_param a b p (edge_differs a b I) T) as (t & ->). exists t. split; [|reflexivity]. destruct (edge_ends _ _ _ I) as (A & B). destruct (edge_prev qs a A) as (p0 & P0). destruct (edge_next qs b B) as (c & C).
    destruct CCW as (_ & S & _). pose proof (S _ _ _ P0 I) as T1. pose proof (S _ _ _ I C) as T2. pose proof (proj1 (C83_halfplanes qs _ CCW L3) H) as HP. pose proof (HP _ _ P0) as H1. pose proof (HP _ _ C) as H2.
    replace (turn p0 a (pl a (sc t (mi b a)))) with (t * turn p0 a b) in H1 by (unfold turn, area2, pl, sc, mi; cbn [x2 y2]; ring).
    replace (turn b c (pl a (sc t (mi b a)))) with ((1 - t) * turn a b c) in H2 by (unfold turn, area2, pl, sc, mi; cbn [x2 y2]; ring). split; nra.
  Qed.
  Lemma first_zero (fs : list (R * R)) : (forall f, In f fs -> 0 <= fst f) -> (exists f, In f fs /\ snd f < 0) -> exists k, 0 <= k <= 1 /\ (exists f, In f fs /\ (1 - k) * fst f + k * snd f = 0) /\ forall f, In f fs -> 0 <= (1 - k) * fst f + k * snd f.
  Proof.
    induction fs as [|f fs IH]; intros P (g & G & N); [contradiction|]. assert (Pf := P f (or_introl eq_refl)).
    assert (CUT : forall k, 0 <= k <= 1 -> (forall h, In h fs -> 0 <= (1 - k) * fst h + k * snd h) -> (1 - k) * fst f + k * snd f < 0 -> exists k, 0 <= k <= 1 /\ (exists h, In h (f :: fs) /\ (1 - k) * fst h + k * snd h = 0) /\ forall h, In h (f :: fs) -> 0 <= (1 - k) * fst h + k * snd h).
    { intros k K H Q. assert (SN : snd f < 0) by nra. set (t := fst f / (fst f - snd f)). assert (TE : t * (fst f - snd f) = fst f) by (unfold t; field; lra). assert (T0 : 0 <= t) by (unfold t; apply Rmult_le_pos; [lra|left; apply Rinv_0_lt_compat; lra]). assert (TK : t <= k) by nra.
      exists t. split; [lra|]. split; [exists f; split; [now left|lra]|]. intros h [<-|I]; [lra|]. pose proof (H h I). pose proof (P h (or_intror I)). destruct (Rle_lt_dec 0 (snd h)); nra. }
    destruct (classic (exists g, In g fs /\ snd g < 0)) as [E|E].
    - destruct (IH (fun h I => P h (or_intror I)) E) as (k & K & (h & I & Z) & A). destruct (Rle_lt_dec 0 ((1 - k) * fst f + k * snd f)) as [LE|LT]; [|now apply (CUT k)]. exists k. split; [exact K|]. split; [exists h; split; [now right|exact Z]|]. intros h' [<-|I']; [exact LE|now apply A].
    - destruct G as [<-|G]; [|exfalso; apply E; now exists g]. apply (CUT 1); [lra| |lra]. intros h I. destruct (Rle_lt_dec 0 (snd h)) as [LE|LT]; [lra|]. exfalso. apply E. now exists h.
  Qed.
  (** Leaving the polygon along a straight line crosses the outline. *)
  Lemma leaving z w : in_hull2 qs z -> ~ in_hull2 qs w -> exists a b k, In (a, b) (polygon_edges qs) /\ 0 <= k <= 1 /\ on_edge a b (pl z (sc k (mi w z))).
  Proof.
    intros Z W. assert (LIN : forall a b k, turn a b (pl z (sc k (mi w z))) = (1 - k) * turn a b z + k * turn a b w) by (intros; unfold turn, area2, pl, sc, mi; cbn [x2 y2]; ring).
    destruct (first_zero (map (fun e => (turn (fst e) (snd e) z, turn (fst e) (snd e) w)) (polygon_edges qs))) as (k & K & (f & F & E) & A).
    - intros f F. apply in_map_iff in F as ([a b] & <- & I). cbn [fst snd]. now apply (proj1 (C83_halfplanes qs z CCW L3) Z).
    - apply NNPP. intros N. apply W. apply (C83_halfplanes qs w CCW L3). intros a b I. apply Rnot_lt_le. intros Q. apply N. exists (turn a b z, turn a b w). split; [apply in_map_iff; now exists (a, b)|exact Q].
    - apply in_map_iff in F as ([a b] & <- & I). cbn [fst snd] in E. exists a, b, k. split; [exact I|]. split; [exact K|]. apply hull_edge; [exact I| |now rewrite LIN].
      apply (C83_halfplanes qs _ CCW L3). intros a' b' I'. rewrite LIN. apply (A (turn a' b' z, turn a' b' w)). apply in_map_iff. now exists (a', b').
  Qed.
  (** A point of the polygon that keeps a distance from the outline is that deep inside every edge line. *)
  Lemma clear_deep w r : in_hull2 qs w -> (forall a b e, In (a, b) (polygon_edges qs) -> on_edge a b e -> r < dst w e) -> deep_inside qs w r.
  Proof.
    intros W C a b I. apply Rnot_le_lt. intros LE. assert (T0 : 0 <= turn a b w) by now apply (proj1 (C83_halfplanes qs w CCW L3) W). assert (D : 0 < dst a b) by (pose proof (edge_differs a b I) as NE; destruct (Rtotal_order 0 (dst a b)) as [|[Q|Q]]; [assumption|exfalso; apply NE; now apply dst_zero|pose proof (sqrt_pos (dt (mi b a) (mi b a))); unfold dst, nrm in *; exfalso; revert Q; apply Rle_not_lt; apply sqrt_pos]).
    set (h := turn a b w / dst a b). assert (HE : h * dst a b = turn a b w) by (unfold h; field; lra). assert (H0 : 0 <= h) by (unfold h; apply Rmult_le_pos; [exact T0|left; now apply Rinv_0_lt_compat]). assert (HR : h <= r) by nra.
    set (n := V2 (- (y2 b - y2 a) / dst a b) ((x2 b - x2 a) / dst a b) : p2). assert (DD : dst a b * dst a b = (x2 b - x2 a) * (x2 b - x2 a) + (y2 b - y2 a) * (y2 b - y2 a)) by (unfold dst, nrm; rewrite sqrt_sqrt; [unfold dt, mi; cbn [x2 y2]; ring|unfold dt; pose proof (Rle_0_sqr (x2 (mi a b))); pose proof (Rle_0_sqr (y2 (mi a b))); unfold Rsqr in *; lra]).
    set (f := pl w (sc (- h) n)). assert (NN : dt n n = 1) by (unfold dt, n; cbn [x2 y2]; apply (Rmult_eq_reg_r (dst a b * dst a b)); [|apply Rgt_not_eq; nra]; transitivity ((x2 b - x2 a) * (x2 b - x2 a) + (y2 b - y2 a) * (y2 b - y2 a)); [field; lra|lra]).
    assert (FT : turn a b f = 0). { unfold f, turn, area2, pl, sc, mi, n. cbn [x2 y2]. transitivity (turn a b w - h * (((x2 b - x2 a) * (x2 b - x2 a) + (y2 b - y2 a) * (y2 b - y2 a)) / dst a b)); [unfold turn, area2, mi; cbn [x2 y2]; field; lra|]. rewrite <- DD. rewrite <- HE. field. lra. }
    assert (FD : forall k, 0 <= k <= 1 -> dst w (pl w (sc k (mi f w))) <= r).
    { intros k K. assert (E : dst w (pl w (sc k (mi f w))) = k * h). { unfold dst, nrm. replace (dt _ _) with ((k * h) * (k * h) * dt n n) by (unfold f, dt, mi, pl, sc; cbn [x2 y2]; ring). rewrite NN, Rmult_1_r. apply sqrt_square. now apply Rmult_le_pos. } rewrite E. nra. }
    destruct (classic (in_hull2 qs f)) as [Q|Q].
    - pose proof (C a b f I (hull_edge a b f I Q FT)) as X. assert (K : 0 <= 1 <= 1) by lra. pose proof (FD 1 K) as Y. replace (pl w (sc 1 (mi f w))) with f in Y by (unfold pl, sc, mi; apply v2_ext; cbn [x2 y2]; ring). lra.
    - destruct (leaving w f W Q) as (a' & b' & k & I' & K & O). pose proof (C a' b' _ I' O). pose proof (FD k K). lra.
  Qed.
End Outline.
(** ** The section of a box by a plane reaches an edge of the box *)
Lemma between n A B d : dot n A <= d <= dot n B -> exists w, on_segment (Seg A B) w /\ dot n w = d.
Proof.
  intros K. destruct (Req_dec (dot n A) (dot n B)) as [E|NE].
  - exists A. split; [exists 0; split; [lra|]; unfold plus, scale, minus; apply vec_ext; cbn; ring|lra].
  - set (t := (d - dot n A) / (dot n B - dot n A)). assert (TE : t * (dot n B - dot n A) = d - dot n A) by (unfold t; field; lra). exists (plus A (scale t (minus B A))). split; [exists t; split; [split; nra|reflexivity]|]. rewrite dot_plus_r, dot_scale_r, dot_minus_r. lra.
Qed.
Lemma on_segment_flip A B w : on_segment (Seg A B) w -> on_segment (Seg B A) w.
Proof. intros (k & K & ->). exists (1 - k). split; [lra|]. cbn [seg_a seg_b]. unfold plus, scale, minus. apply vec_ext; cbn; ring. Qed.
Definition is_edge (b : aabb R) (A B : pt) : Prop := exists i, (i < 12)%nat /\ (AABB_Edge b i = Seg A B \/ AABB_Edge b i = Seg B A).
Lemma edge_on b A B w : is_edge b A B -> on_segment (Seg A B) w -> exists i, (i < 12)%nat /\ on_segment (AABB_Edge b i) w.
Proof. intros (i & I & [E|E]) W; exists i; (split; [exact I|]); rewrite E; [exact W|now apply on_segment_flip]. Qed.
Ltac edgeAt i := exists i; split; [lia|first [left; reflexivity|right; reflexivity]].
Ltac anEdge := first [edgeAt 0%nat|edgeAt 1%nat|edgeAt 2%nat|edgeAt 3%nat|edgeAt 4%nat|edgeAt 5%nat|edgeAt 6%nat|edgeAt 7%nat|edgeAt 8%nat|edgeAt 9%nat|edgeAt 10%nat|edgeAt 11%nat].
Lemma walk b n d P0 P1 P2 P3 : is_edge b P0 P1 -> is_edge b P1 P2 -> is_edge b P2 P3 -> dot n P0 <= d <= dot n P3 -> exists i w, (i < 12)%nat /\ on_segment (AABB_Edge b i) w /\ dot n w = d.
Proof.
  intros E1 E2 E3 K. assert (G : forall A B, is_edge b A B -> dot n A <= d <= dot n B -> exists i w, (i < 12)%nat /\ on_segment (AABB_Edge b i) w /\ dot n w = d).
  { intros A B E Q. destruct (between n A B d Q) as (w & W & D). destruct (edge_on b A B w E W) as (i & I & O). now exists i, w. }
  destruct (Rle_lt_dec d (dot n P1)) as [L1|L1]; [apply (G P0 P1 E1); lra|]. destruct (Rle_lt_dec d (dot n P2)) as [L2|L2]; [apply (G P1 P2 E2); lra|apply (G P2 P3 E3); lra].
Qed.
Lemma section_edge b n z : in_box b z -> exists i w, (i < 12)%nat /\ on_segment (AABB_Edge b i) w /\ dot n w = dot n z.
Proof.
  destruct b as [[a0 a1 a2] [c0 c1 c2]], n as [n0 n1 n2], z as [z0 z1 z2]. intros (X & Y & Z). cbn [minPoint maxPoint vx vy vz] in X, Y, Z.
  destruct (Rle_lt_dec 0 n0) as [S0|S0], (Rle_lt_dec 0 n1) as [S1|S1], (Rle_lt_dec 0 n2) as [S2|S2];
  [apply (walk _ _ _ (V3 a0 a1 a2) (V3 c0 a1 a2) (V3 c0 c1 a2) (V3 c0 c1 c2))|apply (walk _ _ _ (V3 a0 a1 c2) (V3 c0 a1 c2) (V3 c0 c1 c2) (V3 c0 c1 a2))|apply (walk _ _ _ (V3 a0 c1 a2) (V3 c0 c1 a2) (V3 c0 a1 a2) (V3 c0 a1 c2))|apply (walk _ _ _ (V3 a0 c1 c2) (V3 c0 c1 c2) (V3 c0 a1 c2) (V3 c0 a1 a2))
  |apply (walk _ _ _ (V3 c0 a1 a2) (V3 a0 a1 a2) (V3 a0 c1 a2) (V3 a0 c1 c2))|apply (walk _ _ _ (V3 c0 a1 c2) (V3 a0 a1 c2) (V3 a0 c1 c2) (V3 a0 c1 a2))|apply (walk _ _ _ (V3 c0 c1 a2) (V3 a0 c1 a2) (V3 a0 a1 a2) (V3 a0 a1 c2))|apply (walk _ _ _ (V3 c0 c1 c2) (V3 a0 c1 c2) (V3 a0 a1 c2) (V3 a0 a1 a2))];
  try anEdge; unfold dot; cbn [vx vy vz]; split; repeat apply Rplus_le_compat; nra.
Qed.
(** ** The test *)
Lemma supports_poly (ps : list pt) : ps <> [] -> exists s, shapePoly ps = Some s /\ supports s (in_hull ps).
Proof.
  intros NE. destruct ps as [|p rest]; [contradiction|]. eexists. split; [reflexivity|]. assert (X : forall d, exists e m, Poly_ExtremePoint (p :: rest) d = Some (e, m) /\ In e (p :: rest) /\ m = dot d e /\ forall q, in_hull (p :: rest) q -> dot d q <= m).
  { intros d. destruct (C92_extremes p rest d) as (e & m & _ & _ & _ & A & B & C & D & _). exists e, m. auto. }
  assert (V : forall v, In v (p :: rest) -> in_hull (p :: rest) v) by (intros v I A _ IA; now apply IA).
  split; [apply V; now left|]. split; [intros a b k A B K S CV IS; apply CV; [now apply A|now apply B|exact K]|]. cbn [extremePoint]. split.
  - intros d. destruct (X d) as (e & m & -> & _ & -> & _). reflexivity.
  - intros d _. destruct (X d) as (e & m & -> & I & _ & H). cbn [fst snd]. split; [now apply V|exact H].
Qed.
Lemma last_map_any {A B : Type} (g : A -> B) l d : last (map g l) (g d) = g (last l d).
Proof. induction l as [|x [|y l] IH]; [reflexivity|reflexivity|]. exact IH. Qed.
Lemma outline_hits (g : p2 -> pt) hits vs : forall p, outlineHits hits (g p) (map g vs) = true <-> exists a b, In (a, b) (path p vs) /\ hits (Seg (g a) (g b)) = true.
Proof.
  induction vs as [|v vs IH]; intros p; cbn [outlineHits map path]; [split; [discriminate|now intros (a & b & [] & _)]|]. destruct (hits (Seg (g p) (g v))) eqn:H.
  - split; [intros _; exists p, v; split; [now left|exact H]|reflexivity].
  - rewrite IH. split; intros (a & b & I & Q); exists a, b; (split; [|exact Q]); [now right|]. destruct I as [I|I]; [|exact I]. injection I as <- <-. congruence.
Qed.
(** No edge of the polygon is nearly parallel to a face without being parallel to it, or very short; no edge of the box is nearly parallel to the polygon. *)
Definition steady_outline (o U V : pt) (qs : list p2) : Prop := forall a b, In (a, b) (polygon_edges qs) -> let v := minus (embed o U V b) (embed o U V a) in not_near_parallel (scale (/ norm v) v) /\ 1 / 10000 < dist (embed o U V b) (embed o U V a).
Definition steep_box (U V : pt) (b : aabb R) : Prop := forall i, (i < 12)%nat -> 1 / 10000 <= Rabs (dot (cross U V) (minus (seg_b (AABB_Edge b i)) (seg_a (AABB_Edge b i)))).
Theorem C114_aabb (o U V : pt) (q0 q1 : p2) (rest : list p2) (b : aabb R) : let qs := q0 :: q1 :: rest in let ps := map (embed o U V) qs in
  frame U V -> spans qs -> eps6 < dst q0 q1 -> ccw_polygon qs -> box_ok b -> steady_outline o U V qs -> steep_box U V b ->
  exists s r, shapePoly ps = Some s /\ Poly_IntersectsAABB ps b = Some r /\
  (r = true -> exists z y, in_box b z /\ region o U V qs y /\ dist z y <= 1 / 5000) /\
  (gjkRun s (shapeAABB b) <> GaveUp -> (exists a c z, In (a, c) (polygon_edges qs) /\ on_segment (Seg (embed o U V a) (embed o U V c)) z /\ in_box b z) -> r = true) /\
  (gjkRun s (shapeAABB b) <> GaveUp -> (exists z, region o U V qs z /\ in_box b z) -> (forall q a c e, in_box b (embed o U V q) -> In (a, c) (polygon_edges qs) -> on_edge a c e -> 1 / 5000 < dst q e) -> r = true).
Proof.
  intros qs ps FR SP L CCW BK ST SB. assert (L3 : (3 <= length qs)%nat) by (destruct SP as (a & b' & c & (l1 & l2 & l3 & l4 & Q) & _); fold qs in Q; rewrite Q; repeat (rewrite ?app_length; cbn [length]); lia).
  assert (NE : ps <> []) by discriminate. destruct (supports_poly ps NE) as (s & ES & SS). exists s. destruct C87_shapes as (_ & _ & HB & _). destruct (test_answers s (shapeAABB b) _ _ SS (HB b BK)) as (_ & _ & GOOD).
  assert (HIT : forall a c, In (a, c) (polygon_edges qs) -> (fst (fst (AABB_IntersectsSegment b (Seg (embed o U V a) (embed o U V c)))) = true <-> exists p, on_segment (Seg (embed o U V a) (embed o U V c)) p /\ in_box b p)).
  { intros a c I. destruct (ST a c I) as (N & D). pose proof (C23_segment b (Seg (embed o U V a) (embed o U V c)) BK N (or_intror D)) as H. destruct (AABB_IntersectsSegment b _) as [[hit dn] df]. exact (proj1 H). }
  assert (EDGE : forall a c z, In (a, c) (polygon_edges qs) -> on_segment (Seg (embed o U V a) (embed o U V c)) z -> region o U V qs z).
  { intros a c z I (k & K & ->). destruct (edge_ends _ _ _ I) as (A & C). exists (pl a (sc k (mi c a))). split; [intros S CV IS; apply CV; [exact K|now apply IS|now apply IS]|]. cbn [seg_a seg_b]. unfold embed, pl, sc, mi, plus, scale, minus. apply vec_ext; cbn [vx vy vz x2 y2]; ring. }
  assert (BOXE : forall i z, (i < 12)%nat -> on_segment (AABB_Edge b i) z -> in_box b z).
  { intros i z I (k & K & ->). destruct b as [[a0 a1 a2] [c0 c1 c2]]. destruct BK as (B1 & B2 & B3). cbn [minPoint maxPoint vx vy vz] in *. do 12 (destruct i as [|i]; [unfold in_box, plus, scale, minus; cbn; repeat split; nra|]). lia. }
  set (out := outlineHits (fun g => fst (fst (AABB_IntersectsSegment b g))) (last ps (embed o U V q0)) ps). set (inn := existsb (Poly_IntersectsSeg ps) (map (AABB_Edge b) (seq 0 12))).
  assert (OUT : out = true <-> exists a c z, In (a, c) (polygon_edges qs) /\ on_segment (Seg (embed o U V a) (embed o U V c)) z /\ in_box b z).
  { unfold out, ps. rewrite last_map_any, outline_hits. change (path (last qs q0) qs) with (polygon_edges qs). split.
    - intros (a & c & I & H). apply (HIT a c I) in H as (z & Z & B). now exists a, c, z.
    - intros (a & c & z & I & Z & B). exists a, c. split; [exact I|]. apply (HIT a c I). now exists z. }
  assert (INN : inn = true <-> exists i, (i < 12)%nat /\ Poly_IntersectsSeg ps (AABB_Edge b i) = true).
  { unfold inn. rewrite existsb_exists. split; [intros (g & G & H); apply in_map_iff in G as (i & <- & I); apply in_seq in I; exists i; split; [lia|exact H]|intros (i & I & H); exists (AABB_Edge b i); split; [apply in_map; apply in_seq; lia|exact H]]. }
  assert (R : Poly_IntersectsAABB ps b = Some (if GJKIntersect s (shapeAABB b) then (if out then true else inn) else false)) by (unfold Poly_IntersectsAABB, Poly_IntersectsBody, Poly_ConvexIntersects; rewrite ES; cbn [option_map]; destruct (GJKIntersect s (shapeAABB b)); reflexivity).
  eexists. split; [exact ES|]. split; [exact R|]. assert (D0 : forall z : pt, dist z z <= 1 / 5000) by (intros z; unfold dist, norm; replace (dot _ _) with 0 by (unfold dot, minus; cbn; ring); rewrite sqrt_0; lra).
  assert (MEET : gjkRun s (shapeAABB b) <> GaveUp -> (exists z, region o U V qs z /\ in_box b z) -> GJKIntersect s (shapeAABB b) = true) by (intros N (z & Z & B); apply (GOOD N); exists z; split; [now apply hull_map|exact B]).
  split; [|split].
  - destruct (GJKIntersect s (shapeAABB b)); [|discriminate]. destruct out eqn:QO.
    + intros _. destruct (proj1 OUT eq_refl) as (a & c & z & I & Z & B). exists z, z. split; [exact B|]. split; [now apply (EDGE a c)|apply D0].
    + intros QI. apply INN in QI as (i & I & H). destruct (C93_segment o U V q0 q1 rest (AABB_Edge b i) FR SP L (SB i I)) as (G & _). destruct (G H) as (q & y & Q & Y & D). exists (embed o U V q), (embed o U V y). split; [now apply (BOXE i)|]. split; [now exists y|]. now rewrite (emb_dist o U V FR).
  - intros N H. rewrite (proj2 OUT H). destruct H as (a & c & z & I & Z & B). rewrite MEET; [reflexivity|exact N|]. exists z. split; [now apply (EDGE a c)|exact B].
  - intros N H CL. rewrite (MEET N H). destruct out; [reflexivity|]. apply INN. destruct H as (z & (q & Q & ->) & B). destruct (section_edge b (cross U V) (embed o U V q) B) as (i & w & I & W & E). exists i. split; [exact I|].
    assert (WB := BOXE i w I W). assert (PW : exists q', w = embed o U V q').
    { destruct (facing_point o U V FR 1 (or_introl eq_refl) w) as (q' & Q'); [|now exists q']. apply height_zero. pose proof (facing_on o U V FR 1 q) as FO. apply height_zero in FO. unfold height in *. cbn [facing pnormal pd] in *. rewrite dot_scale_l in *. lra. }
    destruct PW as (q' & ->). destruct (C93_segment o U V q0 q1 rest (AABB_Edge b i) FR SP L (SB i I)) as (_ & G). apply (G CCW q' W). apply clear_deep; [exact CCW|exact L3| |intros a c e I' O'; now apply (CL q' a c)].
    apply NNPP. intros NQ. destruct (leaving qs CCW L3 q q' Q NQ) as (a & c & k & I' & K & O'). set (x := pl q (sc k (mi q' q))) in *.
    assert (XB : in_box b (embed o U V x)). { replace (embed o U V x) with (plus (embed o U V q) (scale k (minus (embed o U V q') (embed o U V q)))) by (unfold x, embed, pl, sc, mi, plus, scale, minus; apply vec_ext; cbn [vx vy vz x2 y2]; ring). destruct B as (B1 & B2 & B3), WB as (W1 & W2 & W3). unfold in_box, plus, scale, minus. cbn [vx vy vz]. repeat split; nra. }
    pose proof (CL x a c x XB I' O') as X. rewrite (proj2 (dst_zero x x) eq_refl) in X. lra.
Qed.
Print Assumptions C114_aabb.
(** A tilted square of side 6 and a box inside it that its plane cuts: the outline is far from the box, and the test finds the intersection. *)
Definition tilt_U : pt := V3 (1 / 3) (2 / 3) (2 / 3).
Definition tilt_V : pt := V3 (2 / 3) (1 / 3) (- (2 / 3)).
Definition six : list p2 := [V2 (-3) (-3); V2 3 (-3); V2 3 3; V2 (-3) 3].
Definition bite : aabb R := Box (V3 (-1) (-1) (-1)) (V3 1 1 2).
Lemma six_space : map (embed origin tilt_U tilt_V) six = [V3 (-3) (-3) 0; V3 (-1) 1 4; V3 3 3 0; V3 1 (-1) (-4)].
Proof. unfold six, embed, tilt_U, tilt_V, origin, plus, scale. cbn [map]. repeat f_equal; cbn [x2 y2 vx vy vz]; field. Qed.
Lemma norm_is (v : pt) n : 0 <= n -> dot v v = n * n -> norm v = n.
Proof. intros N D. unfold norm. rewrite D. now apply sqrt_square. Qed.
Lemma gjk_done (x y : shape R) k s0 d pa ma pb mb : extremePoint x d = (pa, ma) -> extremePoint y (vneg d) = (pb, mb) -> 0 <= mb + ma -> UpdateSimplex2 s0 (vsub pa pb) = None -> gjkLoop x y (S k) (S1 s0) d = Hit.
Proof. intros A B P U. cbn [gjkLoop]. rewrite A, B. change (@nltb R Num_R) with Rltb. change (@nadd R Num_R) with Rplus. rsimpl. rewrite (proj2 (Rltb_false _ _)) by exact P. cbn [UpdateSimplex]. now rewrite U. Qed.
Lemma bite_run : exists s, shapePoly (map (embed origin tilt_U tilt_V) six) = Some s /\ gjkRun s (shapeAABB bite) = Hit.
Proof.
  rewrite six_space. eexists. split; [reflexivity|]. set (s := Shape _ _). unfold gjkRun. assert (S0 : vsub (anyPoint s) (anyPoint (shapeAABB bite)) = V3 (-2) (-2) 1) by (unfold vsub; apply vec_ext; cbn; rsimpl; ring). rewrite S0.
  rewrite LengthSq_R. change (@nltb R Num_R) with Rltb. rewrite nlit_R. rewrite (proj2 (Rltb_false _ _)) by (unfold dot; cbn; lra).
  assert (N1 : vneg (V3 (-2) (-2) 1) = V3 2 2 (-1)) by (unfold vneg; apply vec_ext; cbn; rsimpl; ring). assert (N2 : vneg (V3 2 2 (-1)) = V3 (-2) (-2) 1) by (unfold vneg; apply vec_ext; cbn; rsimpl; ring). rewrite N1.
  apply (gjk_done _ _ _ _ _ (V3 3 3 0) (dot (V3 2 2 (-1)) (V3 3 3 0)) (V3 (-1) (-1) 2) (dot (V3 (-1) (-1) 2) (V3 (-2) (-2) 1))).
  - unfold s. cbn [extremePoint Poly_ExtremePoint fold_left]. change (@nltb R Num_R) with Rltb. change (@Dot R Num_R) with dot. cbn [snd].
    rewrite (proj2 (Rltb_true (dot (V3 2 2 (-1)) (V3 (-3) (-3) 0)) _)) by (unfold dot; cbn; lra). cbn [snd]. rewrite (proj2 (Rltb_true (dot (V3 2 2 (-1)) (V3 (-1) 1 4)) _)) by (unfold dot; cbn; lra). cbn [snd].
    rewrite (proj2 (Rltb_false (dot (V3 2 2 (-1)) (V3 3 3 0)) _)) by (unfold dot; cbn; lra). reflexivity.
  - rewrite N2. cbn [extremePoint shapeAABB]. assert (X : AABB_ExtremePoint bite (V3 (-2) (-2) 1) = V3 (-1) (-1) 2).
    { unfold AABB_ExtremePoint, bite. cbn [vx vy vz minPoint maxPoint]. change (@nleb R Num_R) with Rleb. rsimpl. rewrite !(proj2 (Rleb_false 0 (-2))) by lra. rewrite (proj2 (Rleb_true 0 1)) by lra. reflexivity. }
    rewrite X. reflexivity.
  - unfold dot. cbn [vx vy vz]. lra.
  - unfold UpdateSimplex2. rewrite LengthSq_R. change (@nltb R Num_R) with Rltb. rewrite (proj2 (Rltb_false _ _)); [reflexivity|]. rewrite nlit_R. change (@vsub R Num_R) with minus. change (@Cross R Num_R) with cross.
    match goal with |- dot ?v ?v <= _ => replace v with (origin : pt) by (unfold cross, minus, origin; apply vec_ext; cbn; ring) end. unfold dot, origin. cbn. lra.
Qed.
Example C114_witness : frame tilt_U tilt_V /\ spans six /\ eps6 < dst (V2 (-3) (-3)) (V2 3 (-3)) /\ ccw_polygon six /\ box_ok bite /\ steady_outline origin tilt_U tilt_V six /\ steep_box tilt_U tilt_V bite /\
  (forall q a c e, in_box bite (embed origin tilt_U tilt_V q) -> In (a, c) (polygon_edges six) -> on_edge a c e -> 1 / 5000 < dst q e) /\ Poly_IntersectsAABB (map (embed origin tilt_U tilt_V) six) bite = Some true.
Proof.
  assert (FR : frame tilt_U tilt_V) by (unfold frame, tilt_U, tilt_V, dot; cbn; lra).
  assert (SP : spans six) by (exists (V2 (-3) (-3)), (V2 3 (-3)), (V2 3 3); split; [now exists [], [], [], [V2 (-3) 3]|unfold turn, area2, mi; cbn; rewrite Rabs_pos_eq; lra]).
  assert (L : eps6 < dst (V2 (-3) (-3)) (V2 3 (-3))) by (unfold dst; replace (nrm _) with 6; [unfold eps6; lra|]; unfold nrm, dt, mi; cbn; symmetry; apply sqrt_lem_1; lra).
  assert (CCW : ccw_polygon six).
  { unfold six. repeat split.
    - repeat constructor; cbn; intros K; repeat (destruct K as [K|K]; [apply (f_equal (fun v => (x2 v, y2 v))) in K; cbn in K; injection K; intros; lra|]); exact K.
    - intros a b c I J. cbn in I, J. repeat (destruct I as [I|I]; [injection I as <- <-; repeat (destruct J as [J|J]; [injection J; intros; subst; try (unfold turn, area2, mi; cbn; lra); lra|]); destruct J|]). destruct I.
    - intros a b v I J. cbn in I, J. repeat (destruct I as [I|I]; [injection I as <- <-; repeat (destruct J as [J|J]; [subst; unfold turn, area2, mi; cbn; lra|]); destruct J|]). destruct I. }
  assert (BK : box_ok bite) by (unfold box_ok, bite; cbn; lra).
  assert (ST : steady_outline origin tilt_U tilt_V six).
  { intros a b I v. assert (NV : norm v = 6). { apply norm_is; [lra|]. unfold v, embed, origin, tilt_U, tilt_V, dot, plus, scale, minus. cbn in I. repeat (destruct I as [I|I]; [injection I as <- <-; cbn; lra|]). destruct I. }
    split; [|unfold dist; fold v; lra]. rewrite NV. unfold v, embed, origin, tilt_U, tilt_V, plus, scale, minus, not_near_parallel. cbn in I. repeat (destruct I as [I|I]; [injection I as <- <-; cbn; repeat split; right; (match goal with |- _ <= Rabs ?x => destruct (Rle_lt_dec 0 x); [rewrite Rabs_pos_eq by assumption; lra|rewrite Rabs_left by assumption; lra] end)|]). destruct I. }
  assert (SB : steep_box tilt_U tilt_V bite).
  { intros i I. unfold bite, tilt_U, tilt_V, dot, cross, minus. do 12 (destruct i as [|i]; [cbn; match goal with |- _ <= Rabs ?x => destruct (Rle_lt_dec 0 x); [rewrite Rabs_pos_eq by assumption; lra|rewrite Rabs_left by assumption; lra] end|]). lia. }
  assert (CL : forall q a c e, in_box bite (embed origin tilt_U tilt_V q) -> In (a, c) (polygon_edges six) -> on_edge a c e -> 1 / 5000 < dst q e).
  { intros [x y] a c e B I (k & K & ->). unfold in_box, embed, origin, tilt_U, tilt_V, bite, plus, scale in B. cbn in B. assert (FAR : forall u v : R, (1 / 2 <= u \/ u <= - (1 / 2) \/ 1 / 2 <= v \/ v <= - (1 / 2)) -> 1 / 2 * (1 / 2) <= u * u + v * v) by (intros u v [Q|[Q|[Q|Q]]]; nra).
    assert (H : (1 / 2) * (1 / 2) <= dt (mi (V2 x y) (pl a (sc k (mi c a)))) (mi (V2 x y) (pl a (sc k (mi c a))))).
    { unfold dt, mi, pl, sc. cbn in I. repeat (destruct I as [I|I]; [injection I as <- <-; cbn [x2 y2]; apply FAR; first [left; lra|right; left; lra|right; right; left; lra|right; right; right; lra]|]). destruct I. }
    apply sqrt_le_1_alt in H. rewrite sqrt_square in H by lra. unfold dst, nrm. lra. }
  repeat (split; [assumption|]). destruct (C114_aabb origin tilt_U tilt_V _ _ _ bite FR SP L CCW BK ST SB) as (s & r & ES & R & _ & _ & OK). refine (eq_trans R _). f_equal. destruct bite_run as (s' & ES' & RUN). pose proof (eq_trans (eq_sym ES) ES') as Q. injection Q as <-. apply OK; [congruence| |exact CL].
  exists origin. split; [|unfold in_box, bite, origin; cbn; lra]. exists (V2 0 0). split; [|unfold embed, plus, scale, origin, tilt_U, tilt_V; apply vec_ext; cbn; ring]. intros A CV H. replace (V2 0 0) with (pl (V2 (-3) (-3)) (sc (1 / 2) (mi (V2 3 3) (V2 (-3) (-3))))) by (unfold pl, sc, mi; apply v2_ext; cbn; field). apply CV; [lra|apply H; cbn; tauto|apply H; cbn; tauto].
Qed.
