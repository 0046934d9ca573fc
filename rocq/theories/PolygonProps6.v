(** C93, continued: Contains2D compares a segment in the polygon's own 2D coordinates with edges in other coordinates. *)
From Coq Require Import Reals List Bool Lra Lia Arith Classical.
From Verif Require Import Num NumR ScalarModel ScalarProofs Vec3Model Vec3Props Vec2Model Vec2Spec GeoTypes GeoSpec GeoLemmas AabbModel AabbSpec MatModel MatProofs MatProofs2 LineModel LineSpec LineProofs LineProps PlaneModel PlaneSpec PlaneProps PlaneProps2 SphereSpec
  Vec2Props HullSpec HullProofs HullProps2 PlaneTestProofs PolygonModel PolygonSpec PolygonProofs PolygonProps PolygonProps2 PolygonProps3 PolygonProps4.
Import ListNotations.
Open Scope R_scope.
Ltac Zify.zify_post_hook ::= idtac.

Definition square1012 : list p2 := [V2 10 10; V2 12 10; V2 12 12; V2 10 12].
Lemma square1012_ccw : ccw_polygon square1012.
Proof.
  unfold square1012. repeat split.
  + repeat constructor; cbn; intros K; repeat (destruct K as [K|K]; [apply (f_equal (fun v => (x2 v, y2 v))) in K; cbn in K; injection K; intros; lra|]); exact K.
  + intros a b c I J. cbn in I, J. repeat (destruct I as [I|I]; [injection I as <- <-; repeat (destruct J as [J|J]; [injection J; intros; subst; try (unfold turn, area2, mi; cbn; lra); lra|]); destruct J|]). destruct I.
  + intros a b v I J. cbn in I, J. repeat (destruct I as [I|I]; [injection I as <- <-; repeat (destruct J as [J|J]; [subst; unfold turn, area2, mi; cbn; lra|]); destruct J|]). destruct I.
Qed.
Lemma square1012_spans : spans square1012.
Proof. exists (V2 10 10), (V2 12 10), (V2 12 12). split; [now exists [], [], [], [V2 10 12]|unfold turn, area2, mi; cbn; rewrite Rabs_pos_eq; lra]. Qed.
(** The polygon is the square with corners 10 and 12; the segment runs from its middle, local coordinates (1, 1), to local (5, 1), three units outside. *)
Theorem C93_contains2D_refuted : let ps := map (embed origin (V3 1 0 0) (V3 0 1 0)) square1012 in ccw_polygon square1012 /\
  Poly_Contains2D ps (Seg (V3 1 1 0) (V3 5 1 0)) = true /\ exists z, Poly_MapFrom2D ps (V2 5 1) = Some z /\ forall x, in_hull ps x -> 3 <= dist z x.
Proof.
  set (E := embed origin (V3 1 0 0) (V3 0 1 0)). intros ps. split; [exact square1012_ccw|].
  assert (D2 : dst (V2 10 10) (V2 12 10) = 2) by (unfold dst, nrm, dt, mi; cbn [x2 y2]; apply sqrt_lem_1; lra).
  assert (LL : eps6 < dst (V2 10 10) (V2 12 10)) by (rewrite D2; unfold eps6; lra).
  destruct (setup origin (V3 1 0 0) (V3 0 1 0) (V2 10 10) (V2 12 10) [V2 12 12; V2 10 12] xy_frame square1012_spans LL) as (s & S & S1 & UE & PL & BU & BV & C1). specialize (C1 square1012_ccw). subst s. rewrite D2 in BU, BV. fold E in PL, BU, BV.
  assert (BU' : Poly_BasisU ps = V3 1 0 0) by (apply (eq_trans BU); unfold dir, sc, mi, plus, scale; apply vec_ext; cbn; field).
  assert (BV' : Poly_BasisV ps = V3 0 1 0) by (apply (eq_trans BV); unfold dir, sc, mi, perp, plus, scale; apply vec_ext; cbn; field). clear BU BV.
  assert (F : forall q, flat ps (E q) = V3 (x2 q) (y2 q) 0) by (intros q; unfold flat; rewrite BU', BV'; change (@Dot R Num_R) with dot; apply vec_ext; unfold dot, E, embed, origin, plus, scale; cbn; ring).
  assert (MF : forall a b : R, Poly_MapFrom2D ps (V2 a b) = Some (plus (E (V2 (10 + a) (10 + b))) (scale 0 (cross (V3 1 0 0) (V3 0 1 0))))).
  { intros a b. change (Some (vadd (vadd (E (V2 10 10)) (smulv a (Poly_BasisU ps))) (smulv b (Poly_BasisV ps))) = Some (plus (E (V2 (10 + a) (10 + b))) (scale 0 (cross (V3 1 0 0) (V3 0 1 0))))). rewrite BU', BV'. f_equal. vunf. unfold E, embed, origin, plus, scale. apply vec_ext; cbn; rsimpl; ring. }
  assert (DX : forall u v : pt, vx u - vx v <= dist u v) by (intros u v; unfold dist; apply Rle_trans with (Rabs (vx (minus u v))); [cbn; apply Rle_abs|]; unfold norm; rewrite <- sqrt_Rsqr_abs; apply sqrt_le_1_alt; unfold Rsqr, dot; nra).
  split.
  - set (g := Seg _ _). change (Poly_Contains2D ps g) with (if edgesHit (flat ps (E (V2 10 12))) (map (flat ps) ps) g then false else match Poly_MapFrom2D ps (V2 1 1) with Some p => Poly_Contains ps p (nlit 1 100000) | None => false end).
    assert (EH : edgesHit (flat ps (E (V2 10 12))) (map (flat ps) ps) g = false).
    { unfold ps, square1012. cbn [map]. fold square1012. change (map E square1012) with ps. rewrite !F. cbn [x2 y2].
      assert (NO : forall a b : pt, a <> b -> 10 <= vx a -> 10 <= vx b -> Seg_IntersectsSeg (Seg a b) g (nlit 1 1000) = false).
      { intros a b NE A B. destruct (Seg_IntersectsSeg (Seg a b) g (nlit 1 1000)) eqn:K; [exfalso|reflexivity]. apply C43_segments_intersect in K; [|exact NE|unfold proper_seg, g; cbn; intros Z; apply (f_equal vx) in Z; cbn in Z; lra].
        destruct K as (u & v & (t & T & ->) & (t' & T' & ->) & D). revert D. rsimpl. intros D.
        match type of D with dist ?u ?v <= _ => specialize (DX u v); assert (XU : 10 <= vx u) by (unfold plus, scale, minus; cbn [vx seg_a seg_b]; clear - A B T; nra); assert (XV : vx v <= 5) by (unfold g, plus, scale, minus; cbn [vx seg_a seg_b]; clear - T'; lra) end. lra. }
      cbn [edgesHit]. rewrite !NO; try reflexivity; cbn [vx]; try lra; intros Z; apply (f_equal (fun v => vx v + vy v)) in Z; cbn in Z; try lra; apply (f_equal (fun v => vx v)) in Z; cbn in Z; lra. }
    rewrite EH, MF. apply (C91_complete origin (V3 1 0 0) (V3 0 1 0) (V2 10 10) (V2 12 10) [V2 12 12; V2 10 12] _ _ _ xy_frame square1012_spans LL square1012_ccw); [rsimpl; lra|]. left.
    assert (D4 : forall a b, dt (mi a b) (mi a b) = 4 -> dst a b = 2) by (intros a b Z; unfold dst, nrm; rewrite Z; apply sqrt_lem_1; lra).
    intros a b J. cbn in J. assert (DD : dst a b = 2) by (apply D4; repeat (destruct J as [J|J]; [injection J as <- <-; unfold dt, mi; cbn; lra|]); destruct J). rewrite DD. repeat (destruct J as [J|J]; [injection J as <- <-; unfold turn, area2, mi; cbn; lra|]); destruct J.
  - eexists. split; [apply MF|]. intros x I. assert (XX : vx x <= 12).
    { apply (I (fun x => vx x <= 12)); [intros u v k U V K; gunf; cbn [vx]; nra|]. intros v J. unfold ps in J. apply in_map_iff in J as (q & <- & Q). unfold square1012 in Q. cbn [In] in Q. unfold E, embed, origin, plus, scale. repeat (destruct Q as [<-|Q]; [cbn; lra|]). destruct Q. }
    eapply Rle_trans; [|apply DX]. unfold E, embed, origin, plus, scale, cross. cbn [vx vy vz x2 y2]. lra.
Qed.
Print Assumptions C93_contains2D_refuted.
