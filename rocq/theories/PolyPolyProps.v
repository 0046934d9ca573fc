(** C115: convex polygons in planes that cross. *)
From Coq Require Import Reals List Bool Lra Lia Arith Classical Psatz.
From Verif Require Import Num NumR ScalarModel ScalarProofs Vec3Model Vec3Props Vec2Model Vec2Spec GeoTypes GeoSpec GeoLemmas AabbModel AabbSpec MatModel MatProofs MatProofs2 LineModel LineProps PlaneModel PlaneSpec
  PlaneProps SphereSpec Vec2Props HullSpec HullProofs HullProps2 PlaneTestProofs PolygonModel PolygonSpec PolygonProofs PolygonProps PolygonProps2 PolygonProps3 PolygonProps4 PolyMeetProps PolyBoxProps PolyPolyModel.
Import ListNotations.
Ltac Zify.zify_post_hook ::= idtac.
Open Scope R_scope.

Lemma combine_path {A : Type} (g : p2 -> A) (x : p2) : forall vs p, combine (map g (p :: vs)) (map g vs ++ [g x]) = map (fun ab => (g (fst ab), g (snd ab))) (path p vs ++ [(last vs p, x)]).
Proof.
  induction vs as [|v vs IH]; intros p; [reflexivity|]. change (map g (p :: v :: vs)) with (g p :: map g (v :: vs)). change (map g (v :: vs) ++ [g x]) with (g v :: (map g vs ++ [g x])).
  change (combine (g p :: map g (v :: vs)) (g v :: (map g vs ++ [g x]))) with ((g p, g v) :: combine (map g (v :: vs)) (map g vs ++ [g x])). rewrite (IH v). cbn [path app map fst snd]. rewrite !map_app. cbn [map fst snd].
  replace (last (v :: vs) p) with (last vs v); [reflexivity|]. clear. revert v. induction vs as [|y vs IH]; intros v; [reflexivity|]. change (last (v :: y :: vs) p) with (last (y :: vs) p). rewrite <- IH. destruct vs as [|z vs]; [reflexivity|]. clear. change (last (y :: z :: vs) v) with (last (z :: vs) v). revert z. induction vs as [|u vs IH]; intros z; [reflexivity|]. change (last (u :: vs) v = last (u :: vs) y). apply IH.
Qed.
Lemma poly_edges (g : p2 -> pt) qs s : In s (Poly_Edges (map g qs)) <-> exists a b, In (a, b) (polygon_edges qs) /\ s = Seg (g a) (g b).
Proof.
  destruct qs as [|v r]; [split; [contradiction|now intros (a & b & [] & _)]|]. unfold Poly_Edges. cbn [map]. change (g v :: map g r) with (map g (v :: r)). rewrite combine_path, map_map, in_map_iff.
  assert (EQ : forall e, In e (path v r ++ [(last r v, v)]) <-> In e (polygon_edges (v :: r))).
  { intros e. unfold polygon_edges. cbn [path]. replace (last (v :: r) v) with (last r v) by (destruct r; reflexivity). rewrite in_app_iff. cbn [In]. tauto. }
  split.
  - intros ([a b] & <- & I). exists a, b. split; [now apply EQ|reflexivity].
  - intros (a & b & I & ->). exists (a, b). split; [reflexivity|now apply EQ].
Qed.
Lemma Rabs_def2_le x M : Rabs x <= M -> - M <= x <= M.
Proof. unfold Rabs. destruct (Rcase_abs x); lra. Qed.
Lemma hull_bounded qs : exists M, 0 <= M /\ forall p, in_hull2 qs p -> Rabs (x2 p) <= M /\ Rabs (y2 p) <= M.
Proof.
  assert (B : exists M, 0 <= M /\ forall p, In p qs -> Rabs (x2 p) <= M /\ Rabs (y2 p) <= M).
  { induction qs as [|q qs (M & M0 & H)]; [exists 0; split; [lra|contradiction]|]. exists (M + Rabs (x2 q) + Rabs (y2 q)). pose proof (Rabs_pos (x2 q)). pose proof (Rabs_pos (y2 q)). split; [lra|]. intros p [<-|I]; [lra|]. destruct (H p I). lra. }
  destruct B as (M & M0 & H). exists M. split; [exact M0|]. intros p P. apply (P (fun p => Rabs (x2 p) <= M /\ Rabs (y2 p) <= M)); [|exact H].
  intros a b t T (A1 & A2) (B1 & B2). apply Rabs_def2_le in A1, A2, B1, B2. unfold pl, sc, mi. cbn [x2 y2]. split; apply Rabs_le; nra.
Qed.
Lemma hull_leaves qs q v : v <> o2 -> exists T, 0 < T /\ ~ in_hull2 qs (pl q (sc T v)).
Proof.
  intros N. destruct (hull_bounded qs) as (M & M0 & H). assert (S : x2 v <> 0 \/ y2 v <> 0) by (destruct (Req_dec (x2 v) 0); [destruct (Req_dec (y2 v) 0); [exfalso; apply N; apply v2_ext; unfold o2; cbn; assumption|now right]|now left]).
  assert (G : forall x0 c, c <> 0 -> exists T, 0 < T /\ M < Rabs (x0 + T * c)).
  { intros x0 c C. exists ((M + 1 + Rabs x0) / Rabs c). pose proof (Rabs_pos x0). assert (0 < Rabs c) by now apply Rabs_pos_lt. split; [apply Rdiv_lt_0_compat; lra|]. assert (E : Rabs ((M + 1 + Rabs x0) / Rabs c * c) = M + 1 + Rabs x0) by (rewrite Rabs_mult, (Rabs_pos_eq (_ / _)) by (left; apply Rdiv_lt_0_compat; lra); field; lra).
    pose proof (Rabs_triang_inv ((M + 1 + Rabs x0) / Rabs c * c) (- x0)) as TI. rewrite E, Rabs_Ropp in TI. replace (x0 + (M + 1 + Rabs x0) / Rabs c * c) with ((M + 1 + Rabs x0) / Rabs c * c - - x0) by ring. lra. }
  destruct S as [S|S]; [destruct (G (x2 q) _ S) as (T & T0 & L)|destruct (G (y2 q) _ S) as (T & T0 & L)]; exists T; (split; [exact T0|]); intros I; apply H in I; unfold pl, sc in I; cbn [x2 y2] in I; lra.
Qed.
Lemma on_edge_hull qs a b e : In (a, b) (polygon_edges qs) -> on_edge a b e -> in_hull2 qs e.
Proof. intros I (k & K & ->) A CV H. destruct (edge_ends _ _ _ I). apply CV; [exact K|now apply H|now apply H]. Qed.
Lemma embed_move o U V q v T : embed o U V (pl q (sc T v)) = plus (embed o U V q) (scale T (plus (scale (x2 v) U) (scale (y2 v) V))).
Proof. unfold embed, pl, sc, plus, scale. apply vec_ext; cbn [vx vy vz x2 y2]; ring. Qed.
(** Along a direction of its plane, a polygon ends at its outline. *)
Lemma ray_out o U V qs q d : frame U V -> ccw_polygon qs -> (3 <= length qs)%nat -> d <> origin -> dot (cross U V) d = 0 -> in_hull2 qs q ->
  exists T, 0 <= T /\ exists a b e, In (a, b) (polygon_edges qs) /\ on_edge a b e /\ embed o U V e = plus (embed o U V q) (scale T d) /\ forall k, 0 <= k <= T -> exists e', in_hull2 qs e' /\ embed o U V e' = plus (embed o U V q) (scale k d).
Proof.
  intros FR CCW L3 N D Q. set (v := V2 (dot U d) (dot V d) : p2). assert (DV : d = plus (scale (x2 v) U) (scale (y2 v) V)).
  { destruct (facing_point origin U V FR 1 (or_introl eq_refl) d) as (v' & E).
    - apply height_zero. unfold height. cbn [facing pnormal pd]. rewrite dot_scale_l, D. unfold dot, origin. cbn. ring.
    - assert (E2 : d = plus (scale (x2 v') U) (scale (y2 v') V)) by (rewrite E; unfold embed, origin, plus, scale; apply vec_ext; cbn [vx vy vz]; ring). destruct FR as (UU & VV & UV).
      assert (X : x2 v = x2 v') by (unfold v; cbn [x2]; rewrite E2, dot_plus_r, !dot_scale_r, UU, UV; ring). assert (Y : y2 v = y2 v') by (unfold v; cbn [y2]; rewrite E2, dot_plus_r, !dot_scale_r, VV, (dot_comm V U), UV; ring). now rewrite X, Y. }
  assert (NV : v <> o2) by (intros Z; apply N; rewrite DV, Z; unfold o2, plus, scale, origin; apply vec_ext; cbn; ring).
  destruct (hull_leaves qs q v NV) as (T & T0 & OUT). destruct (leaving qs CCW L3 q _ Q OUT) as (a & b & k & I & K & O). exists (k * T). split; [nra|]. set (e := pl q (sc k (mi (pl q (sc T v)) q))) in *.
  assert (EE : e = pl q (sc (k * T) v)) by (unfold e, pl, sc, mi; apply v2_ext; cbn [x2 y2]; ring). exists a, b, e. split; [exact I|]. split; [exact O|]. split; [rewrite EE, embed_move, <- DV; reflexivity|].
  intros j J. exists (pl q (sc j v)). split; [|rewrite embed_move, <- DV; reflexivity]. destruct (Req_dec (k * T) 0) as [Z|Z]; [assert (j = 0) by lra; subst j; replace (pl q (sc 0 v)) with q by (unfold pl, sc; apply v2_ext; cbn [x2 y2]; ring); exact Q|].
  assert (KT : k <> 0 /\ T <> 0) by (split; intros E0; apply Z; rewrite E0; ring).
  replace (pl q (sc j v)) with (pl q (sc (j / (k * T)) (mi e q))) by (rewrite EE; unfold pl, sc, mi; apply v2_ext; cbn [x2 y2]; field; tauto). pose proof (on_edge_hull qs a b e I O) as HE. intros A CV H. apply CV; [|now apply Q|now apply HE].
  assert (P : 0 < k * T) by nra. split; [apply Rmult_le_pos; [lra|left; now apply Rinv_0_lt_compat]|]. apply (Rmult_le_reg_r (k * T)); [exact P|]. unfold Rdiv. rewrite Rmult_assoc, Rinv_l by exact Z. lra.
Qed.
(** Every edge of one polygon crosses the plane through c with normal n at a slope, or runs parallel to it and clear of it. *)
Definition steep_outline (n c : pt) (o U V : pt) (qs : list p2) : Prop := forall a b, In (a, b) (polygon_edges qs) ->
  let e := minus (embed o U V b) (embed o U V a) in 1 / 10000 < Rabs (dot n e) \/ (dot n e = 0 /\ 1 / 1000 < Rabs (dot n (minus (embed o U V a) c))).
Lemma through_steep o U V q0 q1 rest s P : let ps := map (embed o U V) (q0 :: q1 :: rest) in frame U V -> spans (q0 :: q1 :: rest) -> eps6 < dst q0 q1 -> Poly_PlaneCCW ps = Some P -> 1 / 10000 < Rabs (dot (cross U V) (minus (seg_b s) (seg_a s))) -> edgeThrough ps P s = Poly_IntersectsSeg ps s.
Proof.
  intros ps FR SP L EP ST. destruct (setup o U V q0 q1 rest FR SP L) as (f & S & _ & _ & PL & _). fold ps in PL. rewrite PL in EP. injection EP as <-. unfold edgeThrough, Poly_IntersectsSeg. rewrite PL. cbv zeta. unfold IntersectLinePlane. cbv zeta. rewrite !Abs_R. change (@Dot R Num_R) with dot. change (@vsub R Num_R) with minus.
  set (c := dot (pnormal (facing o U V f)) (minus (seg_b s) (seg_a s))). assert (TS : 1 / 10000 < Rabs c) by (unfold c; cbn [facing pnormal]; rewrite dot_scale_l, Rabs_mult; replace (Rabs f) with 1 by (destruct S as [ -> | -> ]; [now rewrite Rabs_R1|rewrite Rabs_left; lra]); lra).
  rsimpl. rewrite (proj2 (Rltb_true _ _)) by exact TS. rewrite (proj2 (Rltb_false (Rabs c) (1 / 10000))) by lra. reflexivity.
Qed.
Lemma through_parallel o U V ps s f : f = 1 \/ f = - 1 -> dot (cross U V) (minus (seg_b s) (seg_a s)) = 0 -> 1 / 1000 < Rabs (dot (cross U V) (minus (seg_a s) o)) -> edgeThrough ps (facing o U V f) s = false.
Proof.
  intros S Z C. unfold edgeThrough, IntersectLinePlane. cbv zeta. change (@Dot R Num_R) with dot. change (@vsub R Num_R) with minus. cbn [facing pnormal pd]. rewrite !dot_scale_l, Z, Rmult_0_r, !Abs_R, Rabs_R0. rsimpl. rewrite (proj2 (Rltb_false (1 / 10000) 0)) by lra. rewrite (proj2 (Reqb_true 0 0) eq_refl). cbn [negb andb].
  assert (Q : EqualAbs (f * dot (cross U V) (seg_a s)) (f * dot (cross U V) o) (1 / 1000) = false).
  { unfold EqualAbs. rewrite Abs_R. rsimpl. apply Rltb_false. rewrite <- Rmult_minus_distr_l, Rabs_mult. replace (Rabs f) with 1 by (destruct S as [ -> | -> ]; [now rewrite Rabs_R1|rewrite Rabs_left; lra]). rewrite dot_minus_r in C. lra. }
  rewrite Q. reflexivity.
Qed.
Theorem C115_across (o U V : pt) (q0 q1 : p2) (qr : list p2) (o' U' V' : pt) (r0 r1 : p2) (rr : list p2) : let qs := q0 :: q1 :: qr in let rs := r0 :: r1 :: rr in let n := cross U V in let m := cross U' V' in
  frame U V -> spans qs -> eps6 < dst q0 q1 -> ccw_polygon qs -> frame U' V' -> spans rs -> eps6 < dst r0 r1 -> ccw_polygon rs ->
  1 / 10000000 < dot (cross n m) (cross n m) -> steep_outline m o' o U V qs -> steep_outline n o o' U' V' rs ->
  exists r, Poly_IntersectsPolygonAcross (map (embed o U V) qs) (map (embed o' U' V') rs) = Some r /\
  (r = true -> exists x y, region o U V qs x /\ region o' U' V' rs y /\ dist x y <= 1 / 5000) /\
  ((exists z, region o U V qs z /\ region o' U' V' rs z) ->
   (forall q w, embed o U V q = embed o' U' V' w -> in_hull2 qs q -> in_hull2 rs w -> ((exists a b, In (a, b) (polygon_edges qs) /\ on_edge a b q) -> deep_inside rs w (1 / 5000)) /\ ((exists a b, In (a, b) (polygon_edges rs) /\ on_edge a b w) -> deep_inside qs q (1 / 5000))) -> r = true).
Proof.
  intros qs rs n m FR SP L CCW FR' SP' L' CCW' X ST ST'.
  assert (LEN : forall l, spans l -> (3 <= length l)%nat) by (intros l (a & b' & c & (l1 & l2 & l3 & l4 & Q) & _); rewrite Q; repeat (rewrite ?app_length; cbn [length]); lia).
  destruct (setup o U V q0 q1 qr FR SP L) as (f & F & F1 & _ & PL & _ & _ & FC). destruct (setup o' U' V' r0 r1 rr FR' SP' L') as (g & G & G1 & _ & PL' & _ & _ & GC). specialize (FC CCW). specialize (GC CCW'). subst f g.
  set (ps := map (embed o U V) qs) in *. set (os := map (embed o' U' V') rs) in *. change (Poly_PlaneCCW ps = Some (facing o U V 1)) in PL. change (Poly_PlaneCCW os = Some (facing o' U' V' 1)) in PL'.
  assert (Z : IsZero (Cross (pnormal (facing o U V 1)) (pnormal (facing o' U' V' 1))) = false).
  { unfold IsZero, IsZero_eps. rewrite LengthSq_R, nlit_R. change (@nleb R Num_R) with Rleb. apply Rleb_false. change (@Cross R Num_R) with cross. cbn [facing pnormal]. replace (cross (scale 1 (cross U V)) (scale 1 (cross U' V'))) with (cross n m) by (unfold n, m, cross, scale; apply vec_ext; cbn; ring). lra. }
  assert (IA : existsb (edgeThrough ps (facing o U V 1)) (Poly_Edges os) = true <-> exists a b, In (a, b) (polygon_edges rs) /\ 1 / 10000 < Rabs (dot n (minus (embed o' U' V' b) (embed o' U' V' a))) /\ Poly_IntersectsSeg ps (Seg (embed o' U' V' a) (embed o' U' V' b)) = true).
  { rewrite existsb_exists. split.
    - intros (s & I & H). apply poly_edges in I as (a & b & I & ->). destruct (ST' a b I) as [SS|(PA & OFF)]; [|rewrite (through_parallel o U V _ (Seg _ _) 1 (or_introl eq_refl) PA OFF) in H; discriminate]. exists a, b. split; [exact I|]. split; [exact SS|]. rewrite <- (through_steep o U V q0 q1 qr _ _ FR SP L PL); [exact H|exact SS].
    - intros (a & b & I & SS & H). exists (Seg (embed o' U' V' a) (embed o' U' V' b)). split; [apply poly_edges; now exists a, b|]. unfold ps, qs. rewrite (through_steep o U V q0 q1 qr _ _ FR SP L PL); [exact H|exact SS]. }
  assert (IB : existsb (edgeThrough os (facing o' U' V' 1)) (Poly_Edges ps) = true <-> exists a b, In (a, b) (polygon_edges qs) /\ 1 / 10000 < Rabs (dot m (minus (embed o U V b) (embed o U V a))) /\ Poly_IntersectsSeg os (Seg (embed o U V a) (embed o U V b)) = true).
  { rewrite existsb_exists. split.
    - intros (s & I & H). apply poly_edges in I as (a & b & I & ->). destruct (ST a b I) as [SS|(PA & OFF)]; [|rewrite (through_parallel o' U' V' _ (Seg _ _) 1 (or_introl eq_refl) PA OFF) in H; discriminate]. exists a, b. split; [exact I|]. split; [exact SS|]. rewrite <- (through_steep o' U' V' r0 r1 rr _ _ FR' SP' L' PL'); [exact H|exact SS].
    - intros (a & b & I & SS & H). exists (Seg (embed o U V a) (embed o U V b)). split; [apply poly_edges; now exists a, b|]. unfold os, rs. rewrite (through_steep o' U' V' r0 r1 rr _ _ FR' SP' L' PL'); [exact H|exact SS]. }
  unfold Poly_IntersectsPolygonAcross. rewrite PL, PL', Z. cbn [negb]. eexists. split; [reflexivity|].
  assert (SEG : forall o U V qs a b z, In (a, b) (polygon_edges qs) -> on_segment (Seg (embed o U V a) (embed o U V b)) z -> region o U V qs z).
  { clear. intros o U V qs a c z I (k & Hk & ->). destruct (edge_ends _ _ _ I) as (A & C). exists (pl a (sc k (mi c a))). split; [intros S CV IS; apply CV; [exact Hk|now apply IS|now apply IS]|]. cbn [seg_a seg_b]. unfold embed, pl, sc, mi, plus, scale, minus. apply vec_ext; cbn [vx vy vz x2 y2]; ring. }
  split.
  - intros R. destruct (existsb (edgeThrough ps _) _) eqn:QA.
    + destruct (proj1 IA eq_refl) as (a & b & I & SS & H). destruct (C93_segment o U V q0 q1 qr (Seg (embed o' U' V' a) (embed o' U' V' b)) FR SP L) as (S & _); [left; exact SS|]. destruct (S H) as (q & y & Q & Y & D). exists (embed o U V y), (embed o U V q). split; [now exists y|]. split; [now apply (SEG o' U' V' rs a b)|]. rewrite (emb_dist o U V FR). replace (dst y q) with (dst q y); [exact D|unfold dst, nrm, dt, mi; cbn [x2 y2]; f_equal; ring].
    + apply IB in R as (a & b & I & SS & H). destruct (C93_segment o' U' V' r0 r1 rr (Seg (embed o U V a) (embed o U V b)) FR' SP' L') as (S & _); [left; exact SS|]. destruct (S H) as (q & y & Q & Y & D). exists (embed o' U' V' q), (embed o' U' V' y). split; [now apply (SEG o U V qs a b)|]. split; [now exists y|]. now rewrite (emb_dist o' U' V' FR').
  - intros (z & (q & Q & EZ) & (w & W & EW)) CL. assert (EQ : embed o U V q = embed o' U' V' w) by congruence. set (d := cross n m) in *. assert (DN : d <> origin) by (intros E; rewrite E in X; unfold dot, origin in X; cbn in X; lra).
    assert (D1 : dot (cross U V) d = 0) by (unfold d, n, dot, cross; cbn [vx vy vz]; ring). assert (D2 : dot (cross U' V') d = 0) by (unfold d, m, dot, cross; cbn [vx vy vz]; ring).
    destruct (ray_out o U V qs q d FR CCW (LEN _ SP) DN D1 Q) as (T1 & P1 & a1 & b1 & e1 & I1 & O1 & E1 & A1). destruct (ray_out o' U' V' rs w d FR' CCW' (LEN _ SP') DN D2 W) as (T2 & P2 & a2 & b2 & e2 & I2 & O2 & E2 & A2).
    assert (ONS : forall o U V a b e, on_edge a b e -> on_segment (Seg (embed o U V a) (embed o U V b)) (embed o U V e)) by (clear; intros o U V a b e (k & K & ->); exists k; split; [exact K|]; cbn [seg_a seg_b]; unfold embed, pl, sc, mi, plus, scale, minus; apply vec_ext; cbn [vx vy vz x2 y2]; ring).
    assert (SLOPE : forall n c o U V qs a b e, steep_outline n c o U V qs -> In (a, b) (polygon_edges qs) -> on_edge a b e -> dot n (minus (embed o U V e) c) = 0 -> 1 / 10000 < Rabs (dot n (minus (embed o U V b) (embed o U V a)))).
    { clear. intros n c o U V qs a b e ST I (k & K & ->) H. destruct (ST a b I) as [S|(PA & OFF)]; [exact S|]. exfalso. replace (dot n (minus (embed o U V a) c)) with 0 in OFF; [rewrite Rabs_R0 in OFF; lra|]. rewrite <- H. replace (minus (embed o U V (pl a (sc k (mi b a)))) c) with (plus (minus (embed o U V a) c) (scale k (minus (embed o U V b) (embed o U V a)))) by (unfold embed, pl, sc, mi, plus, scale, minus; apply vec_ext; cbn [vx vy vz x2 y2]; ring). rewrite dot_plus_r, dot_scale_r, PA. ring. }
    destruct (Rle_lt_dec T1 T2) as [LE|LT].
    + destruct (A2 T1 (conj P1 LE)) as (w' & W' & EW'). assert (EQ' : embed o U V e1 = embed o' U' V' w') by congruence. destruct (CL e1 w' EQ' (on_edge_hull qs a1 b1 e1 I1 O1) W') as (DP & _). specialize (DP (ex_intro _ a1 (ex_intro _ b1 (conj I1 O1)))).
      assert (HB : existsb (edgeThrough os (facing o' U' V' 1)) (Poly_Edges ps) = true); [|now rewrite HB; destruct (existsb (edgeThrough ps _) _)]. apply IB. exists a1, b1. split; [exact I1|]. pose proof (SLOPE m o' o U V qs a1 b1 e1 ST I1 O1) as SS. assert (HT : dot m (minus (embed o U V e1) o') = 0) by (rewrite EQ'; unfold m, embed, plus, scale, minus, dot, cross; cbn [vx vy vz]; ring). specialize (SS HT). split; [exact SS|].
      destruct (C93_segment o' U' V' r0 r1 rr (Seg (embed o U V a1) (embed o U V b1)) FR' SP' L') as (_ & S); [left; exact SS|]. apply (S CCW' w'); [rewrite <- EQ'; now apply ONS|exact DP].
    + destruct (A1 T2) as (q' & Q' & EQ''); [lra|]. assert (EQ' : embed o U V q' = embed o' U' V' e2) by congruence. destruct (CL q' e2 EQ' Q' (on_edge_hull rs a2 b2 e2 I2 O2)) as (_ & DP). specialize (DP (ex_intro _ a2 (ex_intro _ b2 (conj I2 O2)))).
      rewrite (proj2 IA); [reflexivity|]. exists a2, b2. split; [exact I2|]. pose proof (SLOPE n o o' U' V' rs a2 b2 e2 ST' I2 O2) as SS. assert (HT : dot n (minus (embed o' U' V' e2) o) = 0) by (rewrite <- EQ'; unfold n, embed, plus, scale, minus, dot, cross; cbn [vx vy vz]; ring). specialize (SS HT). split; [exact SS|]. destruct (C93_segment o U V q0 q1 qr (Seg (embed o' U' V' a2) (embed o' U' V' b2)) FR SP L) as (_ & S); [left; exact SS|]. apply (S CCW q'); [rewrite EQ'; now apply ONS|exact DP].
Qed.
(** A strip standing across a square: two of its edges pass through the square, the other two stay clear of it. *)
Example C115_witness : let qs := [V2 0 0; V2 2 0; V2 2 2; V2 0 2] in let rs := [V2 (1 / 2) (-1); V2 (3 / 2) (-1); V2 (3 / 2) 1; V2 (1 / 2) 1] in let X := V3 1 0 0 in let Y := V3 0 1 0 in let Z := V3 0 0 1 in
  frame Y Z /\ spans rs /\ eps6 < dst (V2 (1 / 2) (-1)) (V2 (3 / 2) (-1)) /\ ccw_polygon rs /\ 1 / 10000000 < dot (cross (cross X Y) (cross Y Z)) (cross (cross X Y) (cross Y Z)) /\ steep_outline (cross Y Z) X origin X Y qs /\ steep_outline (cross X Y) origin X Y Z rs /\
  Poly_IntersectsPolygonAcross (map (embed origin X Y) qs) (map (embed X Y Z) rs) = Some true.
Proof.
  intros qs rs X Y Z. destruct C90_witness as (FR & SP & CCW & L).
  assert (FR' : frame Y Z) by (unfold frame, Y, Z, dot; cbn; lra).
  assert (SP' : spans rs) by (exists (V2 (1 / 2) (-1)), (V2 (3 / 2) (-1)), (V2 (3 / 2) 1); split; [exists [], [], [], [V2 (1 / 2) 1]; reflexivity|unfold turn, area2, mi, eps6; cbn; split_Rabs; lra]).
  assert (L' : eps6 < dst (V2 (1 / 2) (-1)) (V2 (3 / 2) (-1))) by (unfold dst, nrm, dt, mi; cbn; replace ((1 / 2 - 3 / 2) * (1 / 2 - 3 / 2) + (-1 - -1) * (-1 - -1)) with 1 by field; rewrite sqrt_1; unfold eps6; lra).
  assert (CCW' : ccw_polygon rs).
  { clear. repeat split.
    + repeat constructor; cbn; intros K; repeat (destruct K as [K|K]; [apply (f_equal (fun v => (x2 v, y2 v))) in K; cbn in K; injection K; intros; lra|]); exact K.
    + intros a b c I J. cbn in I, J. repeat (destruct I as [I|I]; [injection I as <- <-; repeat (destruct J as [J|J]; [injection J; intros; subst; try (unfold turn, area2, mi; cbn; lra); lra|]); destruct J|]). destruct I.
    + intros a b v I J. cbn in I, J. repeat (destruct I as [I|I]; [injection I as <- <-; repeat (destruct J as [J|J]; [subst; unfold turn, area2, mi; cbn; lra|]); destruct J|]). destruct I. }
  assert (CR : 1 / 10000000 < dot (cross (cross X Y) (cross Y Z)) (cross (cross X Y) (cross Y Z))) by (unfold X, Y, Z, dot, cross; cbn; lra).
  assert (ST : steep_outline (cross Y Z) X origin X Y qs) by (intros a b I; cbn in I; repeat (destruct I as [I|I]; [injection I as <- <-; unfold X, Y, Z, origin, embed, plus, scale, minus, dot, cross; cbn; first [left; split_Rabs; lra|right; split; [ring|split_Rabs; lra]]|]); destruct I).
  assert (ST' : steep_outline (cross X Y) origin X Y Z rs) by (intros a b I; cbn in I; repeat (destruct I as [I|I]; [injection I as <- <-; unfold X, Y, Z, origin, embed, plus, scale, minus, dot, cross; cbn; first [left; split_Rabs; lra|right; split; [ring|split_Rabs; lra]]|]); destruct I).
  repeat (split; [assumption|]). destruct (C115_across origin X Y _ _ _ X Y Z _ _ _ FR SP L CCW FR' SP' L' CCW' CR ST ST') as (r & E & _ & OK). refine (eq_trans E _). f_equal. apply OK.
  - exists (V3 1 1 0). split; [exists (V2 1 1)|exists (V2 1 0)]; (split; [|unfold X, Y, Z, origin, embed, plus, scale; apply vec_ext; cbn; ring]); intros A CV H.
    + replace (V2 1 1) with (pl (V2 0 0) (sc (1 / 2) (mi (V2 2 2) (V2 0 0)))) by (unfold pl, sc, mi; apply v2_ext; cbn; field). apply CV; [lra|apply H; cbn; tauto|apply H; cbn; tauto].
    + replace (V2 1 0) with (pl (V2 (1 / 2) (-1)) (sc (1 / 2) (mi (V2 (3 / 2) 1) (V2 (1 / 2) (-1))))) by (unfold pl, sc, mi; apply v2_ext; cbn; field). apply CV; [lra|apply H; cbn; tauto|apply H; cbn; tauto].
  - intros [x y] [u v] EQ Q W. assert (EX := f_equal vx EQ). assert (EY := f_equal vy EQ). assert (EZ := f_equal vz EQ). unfold X, Y, Z, origin, embed, plus, scale in EX, EY, EZ. cbn in EX, EY, EZ. assert (x = 1) by lra. assert (u = y) by lra. assert (v = 0) by lra. subst x u v. clear EQ EX EY EZ.
    assert (B : 1 / 2 <= y <= 3 / 2) by (apply (W (fun p => 1 / 2 <= x2 p <= 3 / 2)); [intros a b t T A1 B1; unfold pl, sc, mi; cbn [x2]; nra|intros p I; cbn in I; repeat (destruct I as [<-|I]; [cbn; lra|]); destruct I]).
    split.
    + intros (a & b & I & k & K & EE). exfalso. assert (E1 := f_equal x2 EE). assert (E2 := f_equal y2 EE). clear EE. cbn in I. repeat (destruct I as [I|I]; [injection I as <- <-; unfold pl, sc, mi in E1, E2; cbn in E1, E2; lra|]). destruct I.
    + intros _. assert (D4 : forall a b, dt (mi a b) (mi a b) = 4 -> dst a b = 2) by (intros a b EE; unfold dst, nrm; rewrite EE; apply sqrt_lem_1; lra).
      intros a b J. cbn in J. assert (DD : dst a b = 2) by (apply D4; repeat (destruct J as [J|J]; [injection J as <- <-; unfold dt, mi; cbn; lra|]); destruct J). rewrite DD. repeat (destruct J as [J|J]; [injection J as <- <-; unfold turn, area2, mi; cbn; lra|]); destruct J.
Qed.
Print Assumptions C115_across.
(** The two polygons may be given in either order; no hypothesis on their shape. *)
Theorem C115_symmetric (ps os : list pt) : Poly_IntersectsPolygonAcross ps os = Poly_IntersectsPolygonAcross os ps.
Proof.
  unfold Poly_IntersectsPolygonAcross. destruct (Poly_PlaneCCW ps) as [P|], (Poly_PlaneCCW os) as [Q|]; try reflexivity.
  assert (Z : IsZero (Cross (pnormal P) (pnormal Q)) = IsZero (Cross (pnormal Q) (pnormal P))).
  { unfold IsZero, IsZero_eps. rewrite !LengthSq_R. f_equal. change (@Cross R Num_R) with cross. unfold dot, cross. cbn [vx vy vz]. ring. }
  rewrite Z. destruct (negb _); [|reflexivity]. f_equal. destruct (existsb (edgeThrough ps P) _), (existsb (edgeThrough os Q) _); reflexivity.
Qed.
Print Assumptions C115_symmetric.
