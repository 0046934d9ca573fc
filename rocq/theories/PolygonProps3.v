(** Property C92 of polygons, over the reals: area, perimeter, points on the boundary, extremes, bounding box, plane test. *)
From Coq Require Import Reals List Bool Lra Lia Arith Classical.
From Verif Require Import Num NumR ScalarModel ScalarProofs Vec3Model Vec3Props Vec2Model Vec2Spec GeoTypes GeoSpec GeoLemmas AabbModel AabbSpec AabbProofs AabbProps MatModel MatProofs MatProofs2 LineModel LineSpec LineProofs LineProps PlaneModel PlaneSpec PlaneProps SphereSpec
  Vec2Props HullSpec HullProofs HullProps2 PlaneTestProofs FrustumProps2 FrustumProps3 PolygonModel PolygonSpec PolygonProofs PolygonProps PolygonProps2.
Import ListNotations.
Open Scope R_scope.
Ltac Zify.zify_post_hook ::= idtac.

Lemma sum_app f l1 l2 : sum_edges f (l1 ++ l2) = sum_edges f l1 + sum_edges f l2.
Proof. induction l1 as [|(a & b) l1 IH]; cbn; [ring|rewrite IH; ring]. Qed.
Lemma last_shift {A : Type} (w : A) : forall l a, last (w :: l) a = last l w.
Proof. intros l. revert w. induction l as [|b l IH]; intros w a; [reflexivity|]. change (last (b :: l) a = last (b :: l) w). rewrite !IH. reflexivity. Qed.
Lemma path_app a l1 v l2 : path a (l1 ++ v :: l2) = path a l1 ++ (last l1 a, v) :: path v l2.
Proof. revert a. induction l1 as [|w l1 IH]; intros a; [reflexivity|]. cbn [app path]. rewrite IH. cbn [app]. now rewrite last_shift. Qed.
(** The edges starting from the first vertex. *)
Definition edges_from_first (qs : list p2) : list (p2 * p2) := match qs with [] => [] | q :: r => path q (r ++ [q]) end.
Lemma edges_rot f qs : sum_edges f (edges_from_first qs) = sum_edges f (polygon_edges qs).
Proof.
  destruct qs as [|q r]; [reflexivity|]. cbn [edges_from_first polygon_edges]. rewrite path_app, sum_app. change (path (last (q :: r) q) (q :: r)) with ((last (q :: r) q, q) :: path q r). cbn [sum_edges path].
  rewrite last_shift. ring.
Qed.
Lemma edges_rot_in e qs : In e (edges_from_first qs) <-> In e (polygon_edges qs).
Proof.
  destruct qs as [|q r]; [reflexivity|]. cbn [edges_from_first polygon_edges]. rewrite path_app, in_app_iff. change (path (last (q :: r) q) (q :: r)) with ((last (q :: r) q, q) :: path q r). rewrite last_shift. cbn. tauto.
Qed.
Section Plane.
  Context (o U V : pt) (FR : frame U V).
  Notation E := (embed o U V).
  Lemma polyEdges_R : forall vs a, polyEdges (E a) (map E vs) = map (fun ab => Seg (E (fst ab)) (E (snd ab))) (path a vs).
  Proof. induction vs as [|v vs IH]; intros a; [reflexivity|]. cbn. now rewrite IH. Qed.
  Lemma Poly_Edges_R qs : Poly_Edges (map E qs) = map (fun ab => Seg (E (fst ab)) (E (snd ab))) (edges_from_first qs).
  Proof. destruct qs as [|q r]; [reflexivity|]. cbn [map Poly_Edges edges_from_first]. change [E q] with (map E [q]). rewrite <- map_app. apply polyEdges_R. Qed.
  Lemma seg_len a b : Seg_Length (Seg (E a) (E b)) = dst a b.
  Proof. change (Seg_Length (Seg (E a) (E b))) with (dist (E a) (E b)). apply (emb_dist o U V FR). Qed.
  Lemma perimeter_R : forall es acc, fold_left (fun acc e => acc + Seg_Length e) (map (fun ab => Seg (E (fst ab)) (E (snd ab))) es) acc = acc + sum_edges dst es.
  Proof. induction es as [|(a & b) es IH]; intros acc; cbn [map fold_left sum_edges]; [ring|]. rewrite IH. cbn [fst snd]. rewrite seg_len. ring. Qed.
  Lemma crossSum_R n : forall vs a acc, dot n (crossSum acc (E a) (map E vs)) = dot n acc + sum_edges (fun a b => dot n (cross (E a) (E b))) (path a vs).
  Proof. induction vs as [|v vs IH]; intros a acc; cbn [map crossSum path sum_edges]; [ring|]. rewrite IH. change (@vadd R Num_R) with plus. change (@Cross R Num_R) with cross. rewrite dot_plus_r. ring. Qed.
  Lemma cross_E a b : dot (cross U V) (cross (E a) (E b)) = area2 a b + dot (cross U V) (cross o (dir U V (mi b a))).
  Proof.
    assert (NN : dot (cross U V) (cross U V) = 1) by apply (NN1 U V FR). unfold embed. transitivity (dot (cross U V) (cross U V) * area2 a b + dot (cross U V) (cross o (dir U V (mi b a)))); [|rewrite NN; ring].
    unfold dir, area2, mi, cross, dot, plus, scale. cbn [vx vy vz x2 y2]. ring.
  Qed.
  Lemma sum_tele (g : p2 -> R) f : forall vs a, sum_edges (fun a b => f a b + (g b - g a)) (path a vs) = sum_edges f (path a vs) + (g (last vs a) - g a).
  Proof. induction vs as [|v vs IH]; intros a; cbn [path sum_edges]; [cbn; ring|]. rewrite IH. rewrite last_shift. ring. Qed.
  Lemma sum_ext f g es : (forall a b, f a b = g a b) -> sum_edges f es = sum_edges g es.
  Proof. intros H. induction es as [|(a & b) es IH]; cbn; [reflexivity|]. now rewrite H, IH. Qed.
  Lemma shoelace qs : qs <> [] -> sum_edges (fun a b => dot (cross U V) (cross (E a) (E b))) (polygon_edges qs) = 2 * signed_area qs.
  Proof.
    intros NE. rewrite (sum_ext _ (fun a b => area2 a b + (dot (cross U V) (cross o (dir U V b)) - dot (cross U V) (cross o (dir U V a))))).
    - destruct qs as [|q r]; [easy|]. unfold signed_area. cbn [polygon_edges]. rewrite (sum_tele (fun b => dot (cross U V) (cross o (dir U V b)))).
      rewrite !last_shift. field.
    - intros a b. rewrite cross_E. f_equal. unfold dir, mi, cross, dot, plus, scale. cbn [vx vy vz x2 y2]. ring.
  Qed.
End Plane.
(** The signed area of the fan of triangles from the first vertex. *)
Fixpoint fan_area (v0 v : p2) (rest : list p2) : R := match rest with [] => 0 | w :: r => turn v0 v w / 2 + fan_area v0 w r end.
Lemma fan_sum v0 : forall rest v, sum_edges area2 (path v rest) + area2 (last rest v) v0 + area2 v0 v = 2 * fan_area v0 v rest.
Proof.
  induction rest as [|w r IH]; intros v; cbn [path sum_edges fan_area]; [cbn; unfold area2; ring|]. rewrite last_shift. specialize (IH w).
  assert (T : turn v0 v w = area2 v0 v + area2 v w + area2 w v0) by (unfold turn, area2, mi; cbn [x2 y2]; ring). rewrite Rmult_plus_distr_l, <- IH. replace (2 * (turn v0 v w / 2)) with (turn v0 v w) by field. rewrite T. replace (area2 w v0) with (- area2 v0 w) by (unfold area2; ring). ring.
Qed.
(** The area is the absolute value of the shoelace sum, which is the sum of the signed areas of the triangles of the fan; for a convex
    polygon these triangles all count positively, so the area is the sum of their areas; the perimeter is the length of the boundary. *)
Theorem C92_area (o U V : pt) (q0 q1 : p2) (rest : list p2) : let qs := q0 :: q1 :: rest in frame U V -> spans qs ->
  Poly_Area (map (embed o U V) qs) = Rabs (signed_area qs) /\ signed_area qs = fan_area q0 q1 rest /\ (ccw_polygon qs -> Poly_Area (map (embed o U V) qs) = fan_area q0 q1 rest) /\
  Poly_Perimeter (map (embed o U V) qs) = boundary_length qs.
Proof.
  intros qs FR SP.
  assert (FA : signed_area qs = fan_area q0 q1 rest).
  { unfold signed_area, qs. cbn [polygon_edges]. change (path (last (q0 :: q1 :: rest) q0) (q0 :: q1 :: rest)) with ((last (q0 :: q1 :: rest) q0, q0) :: (q0, q1) :: path q1 rest). cbn [sum_edges]. rewrite !last_shift.
    pose proof (fan_sum q0 rest q1). lra. }
  assert (A : Poly_Area (map (embed o U V) qs) = Rabs (signed_area qs)).
  { assert (LEN : (3 <= length qs)%nat) by (destruct SP as (a & b & c & (l1 & l2 & l3 & l4 & E) & _); rewrite E; rewrite !app_length; cbn; rewrite !app_length; cbn; rewrite !app_length; cbn; lia).
    destruct (C90_plane o U V qs FR SP) as (P & s & S & _ & EN & _).
    assert (F : Poly_Area (map (embed o U V) qs) = match Poly_NormalCCW (map (embed o U V) qs) with Some n => 1 / 2 * Rabs (dot n (crossSum (V3 0 0 0) (last (map (embed o U V) qs) (embed o U V q0)) (map (embed o U V) qs))) | None => 0 end).
    { unfold qs in *. destruct rest as [|z r]; [cbn in LEN; lia|]. unfold Poly_Area. cbn [map]. destruct Poly_NormalCCW; [|reflexivity]. rewrite Abs_R. unfold nhalf. rsimpl. reflexivity. }
    rewrite F, EN. replace (last (map (embed o U V) qs) (embed o U V q0)) with (embed o U V (last qs q0)) by (clear; generalize qs; intros l; induction l as [|a [|b l] IH]; [reflexivity|reflexivity|exact IH]).
    rewrite (crossSum_R o U V). change (path (last qs q0) qs) with (polygon_edges qs). 
    replace (sum_edges (fun a b => dot (scale s (cross U V)) (cross (embed o U V a) (embed o U V b))) (polygon_edges qs)) with (s * (2 * signed_area qs)).
    - replace (dot (scale s (cross U V)) (V3 0 0 0)) with 0 by (unfold dot; cbn [vx vy vz]; ring). rewrite Rplus_0_l, Rabs_mult, Rabs_mult, (Rabs_pos_eq 2) by lra. replace (Rabs s) with 1 by (destruct S as [ -> | -> ]; [now rewrite Rabs_R1|rewrite Rabs_left; lra]). field.
    - rewrite <- (shoelace o U V FR) by discriminate. generalize (polygon_edges qs). intros l. induction l as [|(a & b) l IH]; cbn [sum_edges]; [ring|]. rewrite Rmult_plus_distr_l, IH, dot_scale_l. reflexivity. }
  split; [exact A|]. split; [exact FA|]. split.
  - intros CCW. rewrite A, FA. apply Rabs_pos_eq. assert (SUB : forall w, In w rest -> In w qs) by (intros w I; right; now right).
    assert (G : forall r l v, qs = q0 :: l ++ v :: r -> 0 <= fan_area q0 v r).
    { induction r as [|w r IH]; intros l v EQ; [cbn; lra|]. cbn [fan_area]. assert (I : In (v, w) (polygon_edges qs)) by (rewrite EQ; cbn [polygon_edges]; apply path_iff; exists (last (q0 :: l ++ v :: w :: r) q0 :: q0 :: l), r; cbn [app]; reflexivity).
      assert (T : 0 <= turn v w q0) by (apply CCW; [exact I|now left]). assert (TT : turn q0 v w = turn v w q0) by (unfold turn, area2, mi; cbn [x2 y2]; ring). specialize (IH (l ++ [v]) w). rewrite <- app_assoc in IH. specialize (IH EQ). rewrite TT. lra. }
    apply (G rest [] q1). reflexivity.
  - unfold Poly_Perimeter. rewrite Poly_Edges_R. change (fold_left (fun acc e => acc + Seg_Length e) (map (fun ab => Seg (embed o U V (fst ab)) (embed o U V (snd ab))) (edges_from_first qs)) 0 = boundary_length qs). rewrite (perimeter_R o U V FR). rewrite edges_rot. unfold boundary_length. ring.
Qed.
(** [PointOnEdge] walks along the boundary from the first vertex: the point lies on an edge, and the edges before it together with the part
    of that edge up to the point make up the given fraction of the boundary. *)
Theorem C92_point_on_edge (o U V : pt) (q0 q1 : p2) (rest : list p2) (t : R) : let qs := q0 :: q1 :: rest in frame U V -> 0 <= t <= 1 -> (forall a b, In (a, b) (polygon_edges qs) -> a <> b) ->
  exists l1 a b l2 k, edges_from_first qs = l1 ++ (a, b) :: l2 /\ 0 <= k <= 1 /\ Poly_PointOnEdge (map (embed o U V) qs) t = Some (embed o U V (pl a (sc k (mi b a)))) /\ sum_edges dst l1 + k * dst a b = t * boundary_length qs.
Proof.
  intros qs FR T NE. assert (NE' : forall a b, In (a, b) (edges_from_first qs) -> 0 < dst a b).
  { intros a b I. apply edges_rot_in in I. apply NE in I. destruct (Rle_lt_or_eq_dec 0 (dst a b) (dst_pos a b)) as [K|K]; [exact K|]. symmetry in K. now apply dst_zero in K. }
  assert (PE : Poly_Perimeter (map (embed o U V) qs) = boundary_length qs) by (unfold Poly_Perimeter; rewrite Poly_Edges_R; change (fold_left (fun acc e => acc + Seg_Length e) (map (fun ab => Seg (embed o U V (fst ab)) (embed o U V (snd ab))) (edges_from_first qs)) 0 = boundary_length qs); rewrite (perimeter_R o U V FR); rewrite edges_rot; unfold boundary_length; ring).
  assert (F : Poly_PointOnEdge (map (embed o U V) qs) t = match edgeWalk (Poly_Edges (map (embed o U V) qs)) (t * Poly_Perimeter (map (embed o U V) qs)) with Some q => Some q | None => Some (embed o U V q0) end) by reflexivity.
  assert (POS : 0 <= boundary_length qs) by (unfold boundary_length; generalize (polygon_edges qs); intros l; induction l as [|(a & b) l IH]; cbn [sum_edges]; [lra|]; pose proof (dst_pos a b); lra).
  rewrite F, PE, Poly_Edges_R. clear F PE.
  assert (W : forall es d, es <> [] -> (forall a b, In (a, b) es -> 0 < dst a b) -> 0 <= d <= sum_edges dst es -> exists l1 a b l2 k, es = l1 ++ (a, b) :: l2 /\ 0 <= k <= 1 /\ edgeWalk (map (fun ab => Seg (embed o U V (fst ab)) (embed o U V (snd ab))) es) d = Some (embed o U V (pl a (sc k (mi b a)))) /\ sum_edges dst l1 + k * dst a b = d).
  { induction es as [|(a & b) es IH]; intros d NN P D; [easy|]. cbn [map edgeWalk]. cbn [fst snd]. rewrite (seg_len o U V FR). pose proof (P a b (or_introl eq_refl)) as L. change (nleb d (dst a b)) with (Rleb d (dst a b)). destruct (Rleb_spec d (dst a b)) as [K|K].
    - exists [], a, b, es, (d / dst a b). split; [reflexivity|]. split; [split; [apply Rmult_le_pos; [lra|left; now apply Rinv_0_lt_compat]|apply (Rmult_le_reg_r (dst a b)); [exact L|]; unfold Rdiv; rewrite Rmult_assoc, Rinv_l by lra; lra]|]. split; [|cbn; field; lra].
      f_equal. unfold Seg_GetPoint. vunf. cbn [seg_a seg_b]. unfold embed, pl, sc, mi, plus, scale. cbn [x2 y2]. apply vec_ext; cbn [vx vy vz]; rsimpl; ring.
    - destruct es as [|e es]; [cbn in D; lra|]. destruct (IH (d - dst a b)) as (l1 & a' & b' & l2 & k & E1 & E2 & E3 & E4); [discriminate|intros; apply P; now right|cbn [sum_edges] in D |- *; destruct e; lra|].
      exists ((a, b) :: l1), a', b', l2, k. split; [rewrite E1; reflexivity|]. split; [exact E2|]. split; [exact E3|]. cbn [sum_edges]. lra. }
  destruct (W (edges_from_first qs) (t * boundary_length qs)) as (l1 & a & b & l2 & k & E1 & E2 & E3 & E4); [discriminate|exact NE'|rewrite edges_rot; fold (boundary_length qs); nra|].
  exists l1, a, b, l2, k. rewrite E3. auto.
Qed.
(** Extreme points, projections and the bounding box are those of the convex hull of the vertices. *)
Lemma fold_left_ext_in' {A B : Type} (f g : A -> B -> A) : forall (l : list B) (a : A), (forall a b, In b l -> f a b = g a b) -> fold_left f l a = fold_left g l a.
Proof. induction l as [|b l IH]; intros a H; [reflexivity|]. cbn. rewrite H by now left. apply IH. intros. apply H. now right. Qed.
Theorem C92_extremes (p : pt) (rest : list pt) (d : pt) : let ps := p :: rest in exists e m lo hi b, Poly_ExtremePoint ps d = Some (e, m) /\ In e ps /\ m = dot d e /\ (forall q, in_hull ps q -> dot d q <= m) /\
  Poly_ProjectToAxis ps d = Some (lo, hi) /\ hi = m /\ (exists q, In q ps /\ dot d q = lo) /\ (forall q, in_hull ps q -> lo <= dot d q <= hi) /\
  Poly_MinimalEnclosingAABB ps = Some b /\ (forall q, in_hull ps q -> in_box b q) /\ forall c, (forall q, In q ps -> in_box c q) -> forall q, in_box b q -> in_box c q.
Proof.
  intros ps. assert (X : forall d : pt, exists e, Poly_ExtremePoint ps d = Some (e, dot d e) /\ In e ps /\ forall q, in_hull ps q -> dot d q <= dot d e).
  { intros dd. pose proof (extreme_fold dd rest p) as E. cbv zeta in E. unfold Poly_ExtremePoint. cbn [ps].
    change (fun best q => let d := Dot dd q in if nltb (snd best) d then (q, d) else best) with (fun (acc : pt * R) (c : pt) => let d := Dot dd c in if nltb (snd acc) d then (c, d) else acc).
    destruct (fold_left (fun acc c0 => let d := Dot dd c0 in if nltb (snd acc) d then (c0, d) else acc) rest (p, Dot dd p)) as [e m] eqn:EE. cbn [fst snd] in E. destruct E as (E1 & E2 & E3). exists e. split; [cbn [ps]; rewrite <- E2; f_equal; exact EE|]. split; [exact E1|]. intros q Q. rewrite <- E2. apply (Q (fun q => dot dd q <= m)); [apply half_convex|exact E3]. }
  destruct (X d) as (e & E1 & E2 & E3). destruct (X (scale (-1) d)) as (e' & F1 & F2 & F3). exists e, (dot d e), (dot d e'), (dot d e), (fold_left AABB_Enclose rest (Box p p)).
  split; [exact E1|]. split; [exact E2|]. split; [reflexivity|]. split; [exact E3|]. split.
  { unfold Poly_ProjectToAxis. rewrite E1. replace (vneg d) with (scale (-1) d) by (unfold scale; vunf; apply vec_ext; cbn [vx vy vz]; rsimpl; ring). rewrite F1. change (@Dot R Num_R) with dot. now rewrite !(dot_comm d). }
  split; [reflexivity|]. split; [now exists e'|]. split; [intros q Q; split; [|now apply E3]; specialize (F3 q Q); rewrite !dot_scale_l in F3; lra|]. split; [reflexivity|].
  assert (W : forall c, within (fold_left AABB_Enclose rest (Box p p)) c <-> forall q, In q ps -> in_box c q).
  { intros c. pose proof (enclose_fold c (seq 0 (length rest)) (fun i => nth i rest p) (Box p p)) as EF.
    assert (FE : fold_left (fun b i => AABB_Enclose b (nth i rest p)) (seq 0 (length rest)) (Box p p) = fold_left AABB_Enclose rest (Box p p)).
    { clear. generalize (Box p p). intros b0. assert (G : forall (l : list pt) k b, fold_left (fun b i => AABB_Enclose b (nth (i - k) l p)) (seq k (length l)) b = fold_left AABB_Enclose l b).
      { induction l as [|a l IH]; intros k b; [reflexivity|]. cbn [length seq fold_left]. rewrite Nat.sub_diag. cbn [nth]. rewrite <- (IH (S k)). apply fold_left_ext_in' . intros b' i I. apply in_seq in I. replace (i - k)%nat with (S (i - S k)) by lia. reflexivity. }
      rewrite <- (G rest 0%nat). apply fold_left_ext_in'. intros b' i I. now rewrite Nat.sub_0_r. }
    cbv beta in EF. rewrite FE in EF. rewrite EF, <- inside_within, inside_R. split.
    - intros (A & B) q [<-|Q]; [exact A|]. destruct (In_nth rest q p Q) as (i & I & <-). apply B. apply in_seq. lia.
    - intros H. split; [apply H; now left|]. intros i I. apply in_seq in I. apply H. right. apply nth_In. lia. }
  split.
  - intros q Q. apply (Q (in_box (fold_left AABB_Enclose rest (Box p p)))); [apply convex_box|]. apply W. apply within_R; lra.
  - intros c H q Q. apply W in H. apply inside_R. eapply within_inside; [exact H|]. now apply inside_R.
Qed.
(** The plane test: [false] means that the whole hull of the vertices lies more than 1e-4 on one side, [true] that a point of it is within 1e-4. *)
Lemma hull_mid (vs : list pt) (a b : pt) t : In a vs -> In b vs -> 0 <= t <= 1 -> in_hull vs (plus a (scale t (minus b a))).
Proof. intros A B T S C H. apply C; auto. Qed.
Theorem C92_plane (p : pt) (rest : list pt) (P : plane R) : let ps := p :: rest in
  if Poly_IntersectsPlane ps P then exists q, in_hull ps q /\ Rabs (height P q) <= 1 / 10000
  else (forall q, in_hull ps q -> 1 / 10000 < height P q) \/ (forall q, in_hull ps q -> height P q < - (1 / 10000)).
Proof.
  intros ps. assert (G : forall l lo hi, lo <= hi -> let '(lo', hi') := fold_left (fun '(lo, hi) v => let d := Plane_SignedDistance P v in (Min lo d, Max hi d)) l (lo, hi) in
    (lo' = lo \/ exists q, In q l /\ height P q = lo') /\ (hi' = hi \/ exists q, In q l /\ height P q = hi') /\ lo' <= lo /\ hi <= hi' /\ forall q, In q l -> lo' <= height P q <= hi').
  { induction l as [|a l IH]; intros lo hi L; cbn [fold_left]; [repeat split; try (now left); try lra; contradiction|]. cbv zeta. rewrite Min_R, Max_R. change (Plane_SignedDistance P a) with (height P a). pose proof (Rmin_l lo (height P a)). pose proof (Rmin_r lo (height P a)). pose proof (Rmax_l hi (height P a)). pose proof (Rmax_r hi (height P a)).
    specialize (IH (Rmin lo (height P a)) (Rmax hi (height P a)) ltac:(lra)). cbv zeta in IH. destruct (fold_left _ l _) as [lo' hi']. destruct IH as (A & B & C & D & E). split; [|split; [|split; [|split]]]; try lra.
    + destruct A as [A|(q & Q & A)]; [|right; exists q; split; [now right|exact A]]. rewrite A. unfold Rmin. destruct Rle_dec; [now left|right; exists a; split; [now left|reflexivity]].
    + destruct B as [B|(q & Q & B)]; [|right; exists q; split; [now right|exact B]]. rewrite B. unfold Rmax. destruct Rle_dec; [right; exists a; split; [now left|reflexivity]|now left].
    + intros q [<-|Q]; [lra|]. now apply E. }
  specialize (G rest (height P p) (height P p) (Rle_refl _)). unfold Poly_IntersectsPlane. cbn [ps]. change (Plane_SignedDistance P p) with (height P p). cbv zeta.
  destruct (fold_left _ rest _) as [lo hi]. destruct G as (A & B & C & D & E).
  assert (QL : exists q, In q ps /\ height P q = lo) by (destruct A as [ -> |(q & Q & Qe)]; [exists p; split; [now left|reflexivity]|exists q; split; [now right|exact Qe]]).
  assert (QH : exists q, In q ps /\ height P q = hi) by (destruct B as [ -> |(q & Q & Qe)]; [exists p; split; [now left|reflexivity]|exists q; split; [now right|exact Qe]]).
  assert (BO : forall q, In q ps -> lo <= height P q <= hi) by (intros q [<-|Q]; [lra|now apply E]).
  assert (HC : forall u v t, height P (plus u (scale t (minus v u))) = height P u + t * (height P v - height P u)) by (intros; unfold height; rewrite dot_plus_r, dot_scale_r, dot_minus_r; ring).
  rsimpl. destruct (Rleb_spec lo (1 / 10000)) as [K|K]; cbn [andb]; [destruct (Rleb_spec (- (1 / 10000)) hi) as [M|M]|].
  - destruct QL as (a & Ia & Ha), QH as (b & Ib & Hb). destruct (Rle_dec (- (1 / 10000)) lo) as [Q|Q]; [exists a; split; [intros S _ H; now apply H|rewrite Ha; apply Rabs_le; lra]|].
    destruct (Rle_dec hi (1 / 10000)) as [Q'|Q']; [exists b; split; [intros S _ H; now apply H|rewrite Hb; apply Rabs_le; lra]|].
    exists (plus a (scale (- lo / (hi - lo)) (minus b a))). split; [apply hull_mid; auto; split; [apply Rmult_le_pos; [lra|left; apply Rinv_0_lt_compat; lra]|apply (Rmult_le_reg_r (hi - lo)); [lra|]; unfold Rdiv; rewrite Rmult_assoc, Rinv_l by lra; lra]|].
    rewrite HC, Ha, Hb. replace (lo + - lo / (hi - lo) * (hi - lo)) with 0 by (field; lra). rewrite Rabs_R0. lra.
  - right. intros q Q. apply Rle_lt_trans with hi; [|lra]. apply (Q (fun q => height P q <= hi)); [intros u v t X Y T; rewrite HC; clear - X Y T; nra|]. intros v I. specialize (BO v I). lra.
  - left. intros q Q. apply Rlt_le_trans with lo; [lra|]. apply (Q (fun q => lo <= height P q)); [intros u v t X Y T; rewrite HC; clear - X Y T; nra|]. intros v I. specialize (BO v I). lra.
Qed.
(** [Centroid] is the mean of the vertices, which is not the centroid of the polygon: a vertex added in the middle of an edge of a square
    does not change the region but moves the result. *)
Theorem C92_centroid_refuted : exists ps qs : list pt, (forall p, in_hull ps p <-> in_hull qs p) /\ Poly_Centroid ps <> Poly_Centroid qs /\
  Poly_Centroid qs = Some (scale (/ 4) (plus (plus (plus (V3 0 0 0) (V3 2 0 0)) (V3 2 2 0)) (V3 0 2 0))).
Proof.
  exists [V3 0 0 0; V3 1 0 0; V3 2 0 0; V3 2 2 0; V3 0 2 0], [V3 0 0 0; V3 2 0 0; V3 2 2 0; V3 0 2 0].
  assert (A : Poly_Centroid [V3 0 0 0; V3 1 0 0; V3 2 0 0; V3 2 2 0; V3 0 2 0] = Some (V3 1 (4 / 5) 0)) by (cbn; vunf; f_equal; apply vec_ext; cbn; rsimpl; field).
  assert (B : Poly_Centroid [V3 0 0 0; V3 2 0 0; V3 2 2 0; V3 0 2 0] = Some (V3 1 1 0)) by (cbn; vunf; f_equal; apply vec_ext; cbn; rsimpl; field). split; [|split].
  - intros p. split; intros H S C I; apply H; auto.
    + intros v J. cbn in J. destruct J as [<-|[<-|[<-|[<-|[<-|[]]]]]]; try (apply I; cbn; auto; fail). replace (V3 1 0 0) with (plus (V3 0 0 0) (scale (1 / 2) (minus (V3 2 0 0) (V3 0 0 0)))) by (unfold plus, scale, minus; apply vec_ext; cbn; field). apply C; [apply I; cbn; auto|apply I; cbn; auto|lra].
    + intros v J. apply I. cbn in J |- *. tauto.
  - rewrite A, B. intros K. injection K. lra.
  - rewrite B. f_equal. unfold plus, scale. apply vec_ext; cbn; field.
Qed.
Example C92_witness : frame (V3 1 0 0) (V3 0 1 0) /\ spans [V2 0 0; V2 2 0; V2 2 2; V2 0 2] /\ fan_area (V2 0 0) (V2 2 0) [V2 2 2; V2 0 2] = 4 /\ forall a b, In (a, b) (polygon_edges [V2 0 0; V2 2 0; V2 2 2; V2 0 2]) -> a <> b.
Proof.
  destruct C90_witness as (FR & SP & _). split; [exact FR|]. split; [exact SP|]. split; [cbn; unfold turn, area2, mi; cbn; field|].
  intros a b I E. subst b. cbn in I. repeat (destruct I as [I|I]; [apply (f_equal (fun ab => (x2 (fst ab) - x2 (snd ab), y2 (fst ab) - y2 (snd ab)))) in I; cbn in I; injection I; intros; lra|]). exact I.
Qed.
Print Assumptions C92_area.
Print Assumptions C92_point_on_edge.
Print Assumptions C92_extremes.
Print Assumptions C92_plane.
