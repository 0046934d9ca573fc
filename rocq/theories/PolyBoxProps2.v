(** C114: convex polygons against oriented boxes. *)
From Coq Require Import Reals List Bool Lra Lia Arith Classical Psatz.
From Verif Require Import GjkModel GjkSpec GjkProofs GjkProps Num NumR ScalarModel ScalarProofs Vec3Model Vec3Props Vec2Model Vec2Spec GeoTypes GeoSpec GeoLemmas AabbModel AabbSpec AabbProofs AabbProps2 MatModel MatProofs MatProofs2 LineModel LineProps PlaneModel PlaneSpec
  ObbModel ObbProps ObbProps6 PlaneProps SphereSpec Vec2Props HullSpec HullProofs HullProps2 PlaneTestProofs PolygonModel PolygonSpec PolygonProofs PolygonProps PolygonProps2 PolygonProps3 PolygonProps4 PolyhedronProps6 PolyBoxModel PolyMeetProps PolyBoxProps.
Import ListNotations.
Ltac Zify.zify_post_hook ::= idtac.
Open Scope R_scope.

(** ** Any body with twelve edges, an exact segment test, and a section that reaches an edge *)
Section Body.
  Variables (o U V : pt) (q0 q1 : p2) (rest : list p2) (K : pt -> Prop) (h : shape R) (hits : segment R -> bool) (E : nat -> segment R).
  Let qs := q0 :: q1 :: rest.
  Let ps := map (embed o U V) qs.
  Hypothesis FR : frame U V.
  Hypothesis SP : spans qs.
  Hypothesis L : eps6 < dst q0 q1.
  Hypothesis CCW : ccw_polygon qs.
  Hypothesis SH : supports h K.
  Hypothesis HIT : forall a c, In (a, c) (polygon_edges qs) -> (hits (Seg (embed o U V a) (embed o U V c)) = true <-> exists p, on_segment (Seg (embed o U V a) (embed o U V c)) p /\ K p).
  Hypothesis EDGES : forall i z, (i < 12)%nat -> on_segment (E i) z -> K z.
  Hypothesis SECT : forall n z, K z -> exists i w, (i < 12)%nat /\ on_segment (E i) w /\ dot n w = dot n z.
  Hypothesis SB : forall i, (i < 12)%nat -> 1 / 10000 <= Rabs (dot (cross U V) (minus (seg_b (E i)) (seg_a (E i)))).
  Lemma body_test : exists s r, shapePoly ps = Some s /\ Poly_IntersectsBody ps h hits (map E (seq 0 12)) = Some r /\
    (r = true -> exists z y, K z /\ region o U V qs y /\ dist z y <= 1 / 5000) /\
    (gjkRun s h <> GaveUp -> (exists a c z, In (a, c) (polygon_edges qs) /\ on_segment (Seg (embed o U V a) (embed o U V c)) z /\ K z) -> r = true) /\
    (gjkRun s h <> GaveUp -> (exists z, region o U V qs z /\ K z) -> (forall q a c e, K (embed o U V q) -> In (a, c) (polygon_edges qs) -> on_edge a c e -> 1 / 5000 < dst q e) -> r = true).
  Proof.
    assert (L3 : (3 <= length qs)%nat) by (destruct SP as (a & b' & c & (l1 & l2 & l3 & l4 & Q) & _); rewrite Q; repeat (rewrite ?app_length; cbn [length]); lia).
    assert (NE : ps <> []) by discriminate. destruct (supports_poly ps NE) as (s & ES & SS). exists s. destruct (test_answers s h _ _ SS SH) as (_ & _ & GOOD).
    assert (CVK : convex K) by apply SH.
    assert (EDGE : forall a c z, In (a, c) (polygon_edges qs) -> on_segment (Seg (embed o U V a) (embed o U V c)) z -> region o U V qs z).
    { intros a c z I (k & Hk & ->). destruct (edge_ends _ _ _ I) as (A & C). exists (pl a (sc k (mi c a))). split; [intros S CV IS; apply CV; [exact Hk|now apply IS|now apply IS]|]. cbn [seg_a seg_b]. unfold embed, pl, sc, mi, plus, scale, minus. apply vec_ext; cbn [vx vy vz x2 y2]; ring. }
    set (out := outlineHits hits (last ps (embed o U V q0)) ps). set (inn := existsb (Poly_IntersectsSeg ps) (map E (seq 0 12))).
    assert (OUT : out = true <-> exists a c z, In (a, c) (polygon_edges qs) /\ on_segment (Seg (embed o U V a) (embed o U V c)) z /\ K z).
    { unfold out, ps. rewrite last_map_any, outline_hits. change (path (last qs q0) qs) with (polygon_edges qs). split.
      - intros (a & c & I & H). apply (HIT a c I) in H as (z & Z & B). now exists a, c, z.
      - intros (a & c & z & I & Z & B). exists a, c. split; [exact I|]. apply (HIT a c I). now exists z. }
    assert (INN : inn = true <-> exists i, (i < 12)%nat /\ Poly_IntersectsSeg ps (E i) = true).
    { unfold inn. rewrite existsb_exists. split; [intros (g & G & H); apply in_map_iff in G as (i & <- & I); apply in_seq in I; exists i; split; [lia|exact H]|intros (i & I & H); exists (E i); split; [apply in_map; apply in_seq; lia|exact H]]. }
    assert (R : Poly_IntersectsBody ps h hits (map E (seq 0 12)) = Some (if GJKIntersect s h then (if out then true else inn) else false)) by (unfold Poly_IntersectsBody, Poly_ConvexIntersects; rewrite ES; cbn [option_map]; destruct (GJKIntersect s h); reflexivity).
    eexists. split; [exact ES|]. split; [exact R|]. assert (D0 : forall z : pt, dist z z <= 1 / 5000) by (intros z; unfold dist, norm; replace (dot _ _) with 0 by (unfold dot, minus; cbn; ring); rewrite sqrt_0; lra).
    assert (MEET : gjkRun s h <> GaveUp -> (exists z, region o U V qs z /\ K z) -> GJKIntersect s h = true) by (intros N (z & Z & B); apply (GOOD N); exists z; split; [now apply hull_map|exact B]).
    split; [|split].
    - destruct (GJKIntersect s h); [|discriminate]. destruct out eqn:QO.
      + intros _. destruct (proj1 OUT eq_refl) as (a & c & z & I & Z & B). exists z, z. split; [exact B|]. split; [now apply (EDGE a c)|apply D0].
      + intros QI. apply INN in QI as (i & I & H). destruct (C93_segment o U V q0 q1 rest (E i) FR SP L (SB i I)) as (G & _). destruct (G H) as (q & y & Q & Y & D). exists (embed o U V q), (embed o U V y). split; [now apply (EDGES i)|]. split; [now exists y|]. now rewrite (emb_dist o U V FR).
    - intros N H. rewrite (proj2 OUT H). destruct H as (a & c & z & I & Z & B). rewrite MEET; [reflexivity|exact N|]. exists z. split; [now apply (EDGE a c)|exact B].
    - intros N H CL. rewrite (MEET N H). destruct out; [reflexivity|]. apply INN. destruct H as (z & (q & Q & ->) & B). destruct (SECT (cross U V) (embed o U V q) B) as (i & w & I & W & EQ). exists i. split; [exact I|].
      assert (WB := EDGES i w I W). assert (PW : exists q', w = embed o U V q').
      { destruct (facing_point o U V FR 1 (or_introl eq_refl) w) as (q' & Q'); [|now exists q']. apply height_zero. pose proof (facing_on o U V FR 1 q) as FO. apply height_zero in FO. unfold height in *. cbn [facing pnormal pd] in *. rewrite dot_scale_l in *. lra. }
      destruct PW as (q' & ->). destruct (C93_segment o U V q0 q1 rest (E i) FR SP L (SB i I)) as (_ & G). apply (G CCW q' W). apply clear_deep; [exact CCW|exact L3| |intros a c e I' O'; now apply (CL q' a c)].
      apply NNPP. intros NQ. destruct (leaving qs CCW L3 q q' Q NQ) as (a & c & k & I' & Hk & O'). set (x := pl q (sc k (mi q' q))) in *.
      assert (XB : K (embed o U V x)). { replace (embed o U V x) with (plus (embed o U V q) (scale k (minus (embed o U V q') (embed o U V q)))) by (unfold x, embed, pl, sc, mi, plus, scale, minus; apply vec_ext; cbn [vx vy vz x2 y2]; ring). now apply CVK. }
      pose proof (CL x a c x XB I' O') as X. rewrite (proj2 (dst_zero x x) eq_refl) in X. lra.
  Qed.
End Body.
(** ** Oriented boxes *)
Definition is_oedge (b : obb R) (A B : pt) : Prop := exists i, (i < 12)%nat /\ (OBB_Edge b i = Seg A B \/ OBB_Edge b i = Seg B A).
Lemma owalk b n d P0 P1 P2 P3 : is_oedge b P0 P1 -> is_oedge b P1 P2 -> is_oedge b P2 P3 -> dot n P0 <= d <= dot n P3 -> exists i w, (i < 12)%nat /\ on_segment (OBB_Edge b i) w /\ dot n w = d.
Proof.
  intros E1 E2 E3 K. assert (G : forall A B, is_oedge b A B -> dot n A <= d <= dot n B -> exists i w, (i < 12)%nat /\ on_segment (OBB_Edge b i) w /\ dot n w = d).
  { intros A B (i & I & E) Q. destruct (between n A B d Q) as (w & W & D). exists i, w. split; [exact I|]. split; [|exact D]. destruct E as [->| ->]; [exact W|now apply on_segment_flip]. }
  destruct (Rle_lt_dec d (dot n P1)) as [L1|L1]; [apply (G P0 P1 E1); lra|]. destruct (Rle_lt_dec d (dot n P2)) as [L2|L2]; [apply (G P1 P2 E2); lra|apply (G P2 P3 E3); lra].
Qed.
Lemma dot_at n o x y z : dot n (at_ o x y z) = dot n (opos o) + (x * dot n (oaxis0 o) + (y * dot n (oaxis1 o) + z * dot n (oaxis2 o))).
Proof. unfold at_. now rewrite !dot_plus_r, !dot_scale_r. Qed.
Lemma section_oedge b n z : in_obb b z -> exists i w, (i < 12)%nat /\ on_segment (OBB_Edge b i) w /\ dot n w = dot n z.
Proof.
  intros (x & y & w & X & Y & Z & ->). fold (at_ b x y w). rewrite dot_at. set (c := OBB_CornerPoint b).
  assert (LO : forall i, (i < 8)%nat -> dot n (c i) = dot n (opos b) + ((if Nat.testbit i 2 then 1 else -1) * vx (orad b) * dot n (oaxis0 b) + ((if Nat.testbit i 1 then 1 else -1) * vy (orad b) * dot n (oaxis1 b) + (if Nat.testbit i 0 then 1 else -1) * vz (orad b) * dot n (oaxis2 b)))) by (intros i I; unfold c; rewrite corners_R by exact I; apply dot_at).
  destruct (Rle_lt_dec 0 (dot n (oaxis0 b))) as [S0|S0], (Rle_lt_dec 0 (dot n (oaxis1 b))) as [S1|S1], (Rle_lt_dec 0 (dot n (oaxis2 b))) as [S2|S2];
  [apply (owalk _ _ _ (c 0%nat) (c 4%nat) (c 6%nat) (c 7%nat))|apply (owalk _ _ _ (c 1%nat) (c 5%nat) (c 7%nat) (c 6%nat))|apply (owalk _ _ _ (c 2%nat) (c 6%nat) (c 4%nat) (c 5%nat))|apply (owalk _ _ _ (c 3%nat) (c 7%nat) (c 5%nat) (c 4%nat))
  |apply (owalk _ _ _ (c 4%nat) (c 0%nat) (c 2%nat) (c 3%nat))|apply (owalk _ _ _ (c 5%nat) (c 1%nat) (c 3%nat) (c 2%nat))|apply (owalk _ _ _ (c 6%nat) (c 2%nat) (c 0%nat) (c 1%nat))|apply (owalk _ _ _ (c 7%nat) (c 3%nat) (c 1%nat) (c 0%nat))];
  try (unfold c; anEdge); rewrite !LO by lia; cbn [Nat.testbit Nat.odd Nat.even Nat.div2 negb]; split; apply Rplus_le_compat_l; repeat apply Rplus_le_compat; nra.
Qed.
Definition steady_outline_obb (b : obb R) (o U V : pt) (qs : list p2) : Prop := forall a c, In (a, c) (polygon_edges qs) -> let v := minus (embed o U V c) (embed o U V a) in steady b (scale (/ norm v) v) /\ 1 / 10000 < dist (embed o U V c) (embed o U V a).
Definition steep_obb (U V : pt) (b : obb R) : Prop := forall i, (i < 12)%nat -> 1 / 10000 <= Rabs (dot (cross U V) (minus (seg_b (OBB_Edge b i)) (seg_a (OBB_Edge b i)))).
Theorem C114_obb (o U V : pt) (q0 q1 : p2) (rest : list p2) (b : obb R) : let qs := q0 :: q1 :: rest in let ps := map (embed o U V) qs in
  frame U V -> spans qs -> eps6 < dst q0 q1 -> ccw_polygon qs -> framed b -> obb_ok b -> steady_outline_obb b o U V qs -> steep_obb U V b ->
  exists s r, shapePoly ps = Some s /\ Poly_IntersectsOBB ps b = Some r /\
  (r = true -> exists z y, in_obb b z /\ region o U V qs y /\ dist z y <= 1 / 5000) /\
  (gjkRun s (shapeOBB b) <> GaveUp -> (exists a c z, In (a, c) (polygon_edges qs) /\ on_segment (Seg (embed o U V a) (embed o U V c)) z /\ in_obb b z) -> r = true) /\
  (gjkRun s (shapeOBB b) <> GaveUp -> (exists z, region o U V qs z /\ in_obb b z) -> (forall q a c e, in_obb b (embed o U V q) -> In (a, c) (polygon_edges qs) -> on_edge a c e -> 1 / 5000 < dst q e) -> r = true).
Proof.
  intros qs ps FR SP L CCW F BK ST SB. destruct C87_shapes as (_ & _ & _ & HO & _). assert (SH := HO b BK). assert (CV : convex (in_obb b)) by apply SH.
  apply (body_test o U V q0 q1 rest (in_obb b) (shapeOBB b) (fun s => fst (fst (OBB_IntersectsSeg b s))) (OBB_Edge b)); try assumption.
  - intros a c I. destruct (ST a c I) as (N & D). pose proof (C51_segment b (Seg (embed o U V a) (embed o U V c)) F BK N (or_intror D)) as H. destruct (OBB_IntersectsSeg b _) as [[hit dn] df]. exact (proj1 H).
  - intros i z I (k & K & ->). assert (G : exists i1 i2, (i1 < 8)%nat /\ (i2 < 8)%nat /\ OBB_Edge b i = Seg (OBB_CornerPoint b i1) (OBB_CornerPoint b i2)) by (do 12 (destruct i as [|i]; [eexists; eexists; split; [|split; [|reflexivity]]; lia|]); lia).
    destruct G as (i1 & i2 & I1 & I2 & ->). cbn [seg_a seg_b]. apply CV; [apply C51_corners; assumption|apply C51_corners; assumption|exact K].
  - intros n z. apply section_oedge.
Qed.
Print Assumptions C114_obb.
(** The tilted square again, and a box with its centre off the plane. *)
Definition bite_obb : obb R := Obb (V3 0 0 (1 / 2)) (V3 (3 / 2) (3 / 2) (5 / 4)) (V3 1 0 0) (V3 0 1 0) (V3 0 0 1).
Lemma bite_obb_run : exists s, shapePoly (map (embed origin tilt_U tilt_V) six) = Some s /\ gjkRun s (shapeOBB bite_obb) = Hit.
Proof.
  rewrite six_space. eexists. split; [reflexivity|]. set (s := Shape _ _). unfold gjkRun. assert (S0 : vsub (anyPoint s) (anyPoint (shapeOBB bite_obb)) = V3 (-3) (-3) (- (1 / 2))) by (unfold vsub; apply vec_ext; cbn; rsimpl; lra). rewrite S0.
  rewrite LengthSq_R. change (@nltb R Num_R) with Rltb. rewrite nlit_R. rewrite (proj2 (Rltb_false _ _)) by (unfold dot; cbn; lra).
  assert (N1 : vneg (V3 (-3) (-3) (- (1 / 2))) = V3 3 3 (1 / 2)) by (unfold vneg; apply vec_ext; cbn; rsimpl; lra). assert (N2 : vneg (V3 3 3 (1 / 2)) = V3 (-3) (-3) (- (1 / 2))) by (unfold vneg; apply vec_ext; cbn; rsimpl; lra). rewrite N1.
  apply (gjk_done _ _ _ _ _ (V3 3 3 0) (dot (V3 3 3 (1 / 2)) (V3 3 3 0)) (V3 (- (3 / 2)) (- (3 / 2)) (- (3 / 4))) (dot (V3 (- (3 / 2)) (- (3 / 2)) (- (3 / 4))) (V3 (-3) (-3) (- (1 / 2))))).
  - unfold s. cbn [extremePoint Poly_ExtremePoint fold_left]. change (@nltb R Num_R) with Rltb. change (@Dot R Num_R) with dot. cbn [snd].
    rewrite (proj2 (Rltb_true (dot (V3 3 3 (1 / 2)) (V3 (-3) (-3) 0)) _)) by (unfold dot; cbn; lra). cbn [snd]. rewrite (proj2 (Rltb_true (dot (V3 3 3 (1 / 2)) (V3 (-1) 1 4)) _)) by (unfold dot; cbn; lra). cbn [snd].
    rewrite (proj2 (Rltb_false (dot (V3 3 3 (1 / 2)) (V3 3 3 0)) _)) by (unfold dot; cbn; lra). reflexivity.
  - rewrite N2. cbn [extremePoint shapeOBB]. unfold OBB_ExtremePointDist. assert (X : OBB_ExtremePoint bite_obb (V3 (-3) (-3) (- (1 / 2))) = V3 (- (3 / 2)) (- (3 / 2)) (- (3 / 4))).
    { unfold OBB_ExtremePoint, bite_obb. cbn [oaxis0 oaxis1 oaxis2 orad opos]. change (@nleb R Num_R) with Rleb. change (@Dot R Num_R) with dot. rsimpl. rewrite !(proj2 (Rleb_false 0 _)) by (unfold dot; cbn; lra). unfold vadd, vmuls. apply vec_ext; cbn; rsimpl; lra. }
    rewrite X. reflexivity.
  - unfold dot. cbn [vx vy vz]. lra.
  - unfold UpdateSimplex2. rewrite LengthSq_R. change (@nltb R Num_R) with Rltb. rewrite (proj2 (Rltb_false _ _)); [reflexivity|]. rewrite nlit_R. change (@vsub R Num_R) with minus. change (@Cross R Num_R) with cross.
    match goal with |- dot ?v ?v <= _ => replace v with (origin : pt) by (unfold cross, minus, origin; apply vec_ext; cbn; lra) end. unfold dot, origin. cbn. lra.
Qed.
Example C114_obb_witness : framed bite_obb /\ obb_ok bite_obb /\ steady_outline_obb bite_obb origin tilt_U tilt_V six /\ steep_obb tilt_U tilt_V bite_obb /\
  (forall q a c e, in_obb bite_obb (embed origin tilt_U tilt_V q) -> In (a, c) (polygon_edges six) -> on_edge a c e -> 1 / 5000 < dst q e) /\ Poly_IntersectsOBB (map (embed origin tilt_U tilt_V) six) bite_obb = Some true.
Proof.
  destruct C114_witness as (FR & SP & L & CCW & _ & ST0 & _).
  assert (F : framed bite_obb) by (unfold framed, unitv, orth, bite_obb, dot; cbn; lra). assert (BK : obb_ok bite_obb) by (unfold obb_ok, bite_obb; cbn; lra).
  assert (ST : steady_outline_obb bite_obb origin tilt_U tilt_V six).
  { intros a c I v. destruct (ST0 a c I) as ((X & Y & Z) & D). split; [|exact D]. fold v in X, Y, Z. assert (E : forall u : pt, dot u (V3 1 0 0) = vx u /\ dot u (V3 0 1 0) = vy u /\ dot u (V3 0 0 1) = vz u) by (intros u; unfold dot; cbn; lra).
    unfold steady, bite_obb. cbn [oaxis0 oaxis1 oaxis2]. destruct (E (scale (/ norm v) v)) as (-> & -> & ->). auto. }
  assert (SB : steep_obb tilt_U tilt_V bite_obb).
  { intros i I. assert (G : exists p w : nat, (p < 8)%nat /\ (w < 8)%nat /\ OBB_Edge bite_obb i = Seg (OBB_CornerPoint bite_obb p) (OBB_CornerPoint bite_obb w) /\ (w = p + 1 \/ w = p + 2 \/ w = p + 4)%nat /\ exists k, (w = p + k)%nat /\ Nat.land p k = 0%nat /\ (k = 1 \/ k = 2 \/ k = 4)%nat) by (do 12 (destruct i as [|i]; [eexists; eexists; split; [|split; [|split; [reflexivity|split; [lia|eexists; split; [|split]]]]]; try lia; try reflexivity; lia|]); lia).
    destruct G as (p & w & P & W & -> & _ & k & KE & LA & KK). cbn [seg_a seg_b]. rewrite !corners_R by assumption. subst w.
    do 8 (destruct p as [|p]; [destruct KK as [->|[->| ->]]; try discriminate LA; cbn [Nat.testbit Nat.odd Nat.even Nat.div2 negb Nat.add]; unfold at_, bite_obb, tilt_U, tilt_V, dot, cross, minus, plus, scale; cbn [vx vy vz opos orad oaxis0 oaxis1 oaxis2]; (match goal with |- _ <= Rabs ?x => destruct (Rle_lt_dec 0 x); [rewrite Rabs_pos_eq by assumption; lra|rewrite Rabs_left by assumption; lra] end)|]). lia. }
  assert (CL : forall q a c e, in_obb bite_obb (embed origin tilt_U tilt_V q) -> In (a, c) (polygon_edges six) -> on_edge a c e -> 1 / 5000 < dst q e).
  { intros [x y] a c e (u & v & w & U1 & V1 & W1 & EE) I (k & K & ->). assert (EX := f_equal vx EE). assert (EY := f_equal vy EE). assert (EZ := f_equal vz EE). clear EE. unfold embed, origin, tilt_U, tilt_V, bite_obb, plus, scale in *. cbn in U1, V1, W1, EX, EY, EZ.
    assert (FAR : forall u v : R, (1 / 4 <= u \/ u <= - (1 / 4) \/ 1 / 4 <= v \/ v <= - (1 / 4)) -> 1 / 4 * (1 / 4) <= u * u + v * v) by (intros u' v' [Q|[Q|[Q|Q]]]; nra).
    assert (BX : - (11 / 4) <= x <= 11 / 4) by lra. assert (BY : - (11 / 4) <= y <= 11 / 4) by lra. clear - BX BY I FAR.
    assert (H : (1 / 4) * (1 / 4) <= dt (mi (V2 x y) (pl a (sc k (mi c a)))) (mi (V2 x y) (pl a (sc k (mi c a))))).
    { unfold dt, mi, pl, sc. cbn in I. repeat (destruct I as [I|I]; [injection I as <- <-; cbn [x2 y2]; apply FAR; first [left; lra|right; left; lra|right; right; left; lra|right; right; right; lra]|]). destruct I. }
    apply sqrt_le_1_alt in H. rewrite sqrt_square in H by lra. unfold dst, nrm. lra. }
  repeat (split; [assumption|]). destruct (C114_obb origin tilt_U tilt_V _ _ _ bite_obb FR SP L CCW F BK ST SB) as (s & r & ES & R & _ & _ & OK). refine (eq_trans R _). f_equal. destruct bite_obb_run as (s' & ES' & RUN). pose proof (eq_trans (eq_sym ES) ES') as Q. injection Q as <-. apply OK; [congruence| |exact CL].
  exists origin. split; [|exists 0, 0, (- (1 / 2)); unfold bite_obb, origin, plus, scale; cbn; repeat split; try lra; apply vec_ext; cbn; lra]. exists (V2 0 0). split; [|unfold embed, plus, scale, origin, tilt_U, tilt_V; apply vec_ext; cbn; ring]. intros A CV H. replace (V2 0 0) with (pl (V2 (-3) (-3)) (sc (1 / 2) (mi (V2 3 3) (V2 (-3) (-3))))) by (unfold pl, sc, mi; apply v2_ext; cbn; field). apply CV; [lra|apply H; cbn; tauto|apply H; cbn; tauto].
Qed.
