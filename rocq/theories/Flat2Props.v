(** C102: 2D line segments. *)
From Coq Require Import Reals Lra Bool List.
From Verif Require Import Num NumR ScalarModel Vec3Model Vec2Model GeoTypes MatModel AabbModel LineModel RotModel PlaneModel TriangleModel GeoSpec AabbSpec LineSpec TriangleSpec
  GeoLemmas LineProofs LineProps TriangleProps Vec2Spec Vec2Props Flat2Model Flat2Spec.
Import ListNotations.
Open Scope R_scope.

(** The plane as the plane z = 0 of space. *)
Definition up (q : v2 R) : vec R := V3 (x2 q) (y2 q) 0.
Definition upS (s : seg2 R) : segment R := Seg (up (s2a s)) (up (s2b s)).
Definition upT (t : tri2 R) : triangle R := Tri (up (t2a t)) (up (t2b t)) (up (t2c t)).
Lemma v2_ext (a b : v2 R) : x2 a = x2 b -> y2 a = y2 b -> a = b.
Proof. destruct a, b. cbn. now intros -> ->. Qed.
Lemma up_inj a b : up a = up b -> a = b.
Proof. unfold up. intros E. injection E as E1 E2. now apply v2_ext. Qed.
Lemma up_dot a b : Dot (up a) (up b) = Dot2 a b. Proof. unfold up, Dot2. vunf. rsimpl. cbn [vx vy vz]. ring. Qed.
Lemma up_sub a b : vsub (up a) (up b) = up (sub2 a b). Proof. unfold up, sub2. vunf. rsimpl. cbn [vx vy vz x2 y2]. f_equal; ring. Qed.
Lemma up_add a b : vadd (up a) (up b) = up (add2 a b). Proof. unfold up, add2. vunf. rsimpl. cbn [vx vy vz x2 y2]. f_equal; ring. Qed.
Lemma up_smul k a : smulv k (up a) = up (smul2 k a). Proof. unfold up, smul2. vunf. rsimpl. cbn [vx vy vz x2 y2]. f_equal; ring. Qed.
Lemma up_muls a k : vmuls (up a) k = up (muls2 a k). Proof. unfold up, muls2. vunf. rsimpl. cbn [vx vy vz x2 y2]. f_equal; ring. Qed.
Lemma up_lensq a : LengthSq (up a) = LengthSq2 a. Proof. unfold up, LengthSq2. vunf. rsimpl. cbn [vx vy vz]. ring. Qed.
Lemma up_distsq a b : DistanceSq (up a) (up b) = DistanceSq2 a b. Proof. unfold up, DistanceSq2. vunf. rsimpl. cbn [vx vy vz]. ring. Qed.
Lemma up_dist a b : Distance (up a) (up b) = Distance2 a b. Proof. unfold Distance, Distance2. now rewrite up_distsq. Qed.
Lemma up_plus a b : plus (up a) (up b) = up (pl a b). Proof. unfold up, pl. gunf. cbn [x2 y2]. f_equal; ring. Qed.
Lemma up_minus a b : minus (up a) (up b) = up (mi a b). Proof. unfold up, mi. gunf. cbn [x2 y2]. f_equal; ring. Qed.
Lemma up_scale k a : scale k (up a) = up (sc k a). Proof. unfold up, sc. gunf. cbn [x2 y2]. f_equal; ring. Qed.
Lemma up_dst a b : dist (up a) (up b) = dst a b.
Proof. unfold dist, dst, norm, nrm, dot, dt, up. gunf. cbn [x2 y2 vx vy vz mi]. f_equal. ring. Qed.
Lemma up_seg s q3 : on_segment (upS s) q3 <-> exists q, on_seg2 s q /\ q3 = up q.
Proof.
  unfold on_segment, on_seg2, upS. cbn [seg_a seg_b]. split.
  - intros (t & T & ->). rewrite up_minus, up_scale, up_plus. eexists. split; [|reflexivity]. exists t. auto.
  - intros (q & (t & T & ->) & ->). exists t. split; [exact T|]. now rewrite up_minus, up_scale, up_plus.
Qed.
Lemma up_tri t q3 : in_triangle (upT t) q3 <-> exists q, in_tri2 t q /\ q3 = up q.
Proof.
  unfold in_triangle, in_tri2, upT. cbn [tri_a tri_b tri_c]. split.
  - intros (u & v & w & U & V & W & E & ->). rewrite !up_scale, !up_plus. eexists. split; [|reflexivity]. exists u, v, w. auto.
  - intros (q & (u & v & w & U & V & W & E & ->) & ->). exists u, v, w. repeat (split; [assumption|]). now rewrite !up_scale, !up_plus.
Qed.
Lemma up_nearest A (B : pt -> Prop) p a : (forall q3, B q3 <-> exists q, A q /\ q3 = up q) -> nearest B (up p) (up a) -> nearest2 A p a.
Proof.
  intros H [Ba M]. split.
  - apply H in Ba as (q & Aq & E). now rewrite (up_inj _ _ E).
  - intros a' Aa'. rewrite <- !up_dst. apply M, H. eauto.
Qed.
Lemma up_nearest_pair A A' (B B' : pt -> Prop) a a' : (forall q3, B q3 <-> exists q, A q /\ q3 = up q) -> (forall q3, B' q3 <-> exists q, A' q /\ q3 = up q) ->
  nearest_pair B B' (up a) (up a') -> nearest_pair2 A A' a a'.
Proof.
  intros H H' (Ba & Ba' & M). split; [|split].
  - apply H in Ba as (q & Aq & E). now rewrite (up_inj _ _ E).
  - apply H' in Ba' as (q & Aq & E). now rewrite (up_inj _ _ E).
  - intros x x' Ax Ax'. rewrite <- !up_dst. apply M; [apply H|apply H']; eauto.
Qed.
Lemma up_proper s : proper_seg2 s -> proper_seg (upS s).
Proof. intros N E. apply N. now apply up_inj. Qed.
Create HintDb up2.
Global Hint Rewrite up_sub up_dot up_lensq up_smul up_muls up_add up_distsq up_dist : up2.
Lemma up_closest s p : Seg_ClosestPoint (upS s) (up p) = (up (fst (Seg2_ClosestPoint s p)), snd (Seg2_ClosestPoint s p)).
Proof. unfold Seg_ClosestPoint, Seg2_ClosestPoint, upS. cbn [seg_a seg_b fst snd]. now autorewrite with up2. Qed.
Lemma up_lines a b c d : ClosestPointLineLine (up a) (up b) (up c) (up d) = Line2DClosestPointLineLine a b c d.
Proof. unfold ClosestPointLineLine, Line2DClosestPointLineLine. now autorewrite with up2. Qed.
Lemma up_closest_seg s o : Seg_ClosestPointSeg (upS s) (upS o) = let '(c, d, d2) := Seg2_ClosestPointSeg s o in (up c, d, d2).
Proof.
  unfold Seg_ClosestPointSeg, Seg2_ClosestPointSeg. cbn [upS seg_a seg_b]. autorewrite with up2. rewrite up_lines.
  destruct (Line2DClosestPointLineLine _ _ _ _) as [d d2].
  destruct (((d >=? n0)%num && (d <=? n1)%num && (d2 >=? n0)%num && (d2 <=? n1)%num)); [now autorewrite with up2|].
  fold (upS s) (upS o). destruct ((d >=? n0)%num && (d <=? n1)%num); [|destruct ((d2 >=? n0)%num && (d2 <=? n1)%num)].
  - destruct (d2 <? n0)%num; rewrite up_closest; now destruct (Seg2_ClosestPoint s _).
  - destruct (d <? n0)%num; rewrite up_closest; now destruct (Seg2_ClosestPoint o _).
  - destruct (d <? n0)%num, (d2 <? n0)%num; rewrite !up_closest; destruct (Seg2_ClosestPoint s _), (Seg2_ClosestPoint o _); cbn [fst snd]; rewrite !up_distsq;
      now destruct (_ <=? _)%num.
Qed.
Lemma up_along a b t : along (up a) (up b) t = up (pl a (sc t b)).
Proof. unfold along. now rewrite up_scale, up_plus. Qed.

Theorem C102_point (s : seg2 R) (p : p2) : proper_seg2 s ->
  let '(c, d) := Seg2_ClosestPoint s p in
  0 <= d <= 1 /\ c = pl (s2a s) (sc d (mi (s2b s) (s2a s))) /\ nearest2 (on_seg2 s) p c.
Proof.
  intros P. assert (U : unitv (V3 1 0 0)) by (unfold unitv; gunf; cbn; ring).
  destruct (C43_point (Ln (V3 0 0 0) (V3 1 0 0)) (Ry (V3 0 0 0) (V3 1 0 0)) (upS s) (up p) U U (up_proper s P)) as (_ & _ & H).
  rewrite up_closest in H. destruct (Seg2_ClosestPoint s p) as [c d]. cbn [fst snd] in H. destruct H as (D & E & N). split; [exact D|]. split.
  - apply up_inj. rewrite E. cbn [upS seg_a seg_b]. now rewrite up_minus, up_along.
  - exact (up_nearest _ _ _ _ (up_seg s) N).
Qed.
Print Assumptions C102_point.
Theorem C102_pair (s o : seg2 R) : proper_seg2 s -> proper_seg2 o ->
  let '(c, d, d2) := Seg2_ClosestPointSeg s o in
  0 <= d <= 1 /\ 0 <= d2 <= 1 /\ c = pl (s2a s) (sc d (mi (s2b s) (s2a s))) /\
  nearest_pair2 (on_seg2 s) (on_seg2 o) c (pl (s2a o) (sc d2 (mi (s2b o) (s2a o)))).
Proof.
  intros P Q. assert (H := C43_segment_segment _ _ (up_proper s P) (up_proper o Q)). rewrite up_closest_seg in H.
  destruct (Seg2_ClosestPointSeg s o) as [[c d] d2]. destruct H as (D & D2 & E & N). cbn [upS seg_a seg_b] in E, N. rewrite up_minus, up_along in E, N.
  split; [exact D|]. split; [exact D2|]. split; [now apply up_inj|]. exact (up_nearest_pair _ _ _ _ _ _ (up_seg s) (up_seg o) N).
Qed.
Print Assumptions C102_pair.
(** Distances, containment and intersection. *)
Definition distance2_is (A B : p2 -> Prop) (x : R) : Prop := (exists a b, A a /\ B b /\ dst a b = x) /\ forall a b, A a -> B b -> x <= dst a b.
Lemma Seg2_GetPoint_R s d : Seg2_GetPoint s d = pl (s2a s) (sc d (mi (s2b s) (s2a s))).
Proof. unfold Seg2_GetPoint, pl, sc, mi, add2, smul2. rsimpl. cbn [x2 y2]. f_equal; ring. Qed.
Lemma Distance2_R a b : Distance2 a b = dst a b.
Proof. rewrite <- up_dist, <- up_dst. reflexivity. Qed.
Lemma DistanceSq2_R a b : DistanceSq2 a b = dst a b * dst a b.
Proof. rewrite <- up_distsq, <- up_dst. change (@DistanceSq R Num_R) with sqd. apply sqd_dist. Qed.
Lemma dst_pos a b : 0 <= dst a b. Proof. apply sqrt_pos. Qed.
Theorem C102_distances (s o : seg2 R) (p : p2) : proper_seg2 s -> proper_seg2 o ->
  distance2_is (on_seg2 s) (eq p) (fst (Seg2_Distance s p)) /\ Seg2_DistanceSq s p = fst (Seg2_Distance s p) * fst (Seg2_Distance s p) /\
  distance2_is (on_seg2 s) (on_seg2 o) (fst (fst (Seg2_DistanceSeg s o))) /\
  Seg2_DistanceSqSeg s o = fst (fst (Seg2_DistanceSeg s o)) * fst (fst (Seg2_DistanceSeg s o)) /\
  dst (Seg2_GetPoint s (snd (Seg2_Distance s p))) p = fst (Seg2_Distance s p) /\
  dst (Seg2_GetPoint s (snd (fst (Seg2_DistanceSeg s o)))) (Seg2_GetPoint o (snd (Seg2_DistanceSeg s o))) = fst (fst (Seg2_DistanceSeg s o)).
Proof.
  intros P Q. assert (A := C102_point s p P). assert (B := C102_pair s o P Q). unfold Seg2_Distance, Seg2_DistanceSq, Seg2_DistanceSeg, Seg2_DistanceSqSeg.
  destruct (Seg2_ClosestPoint s p) as [c d], (Seg2_ClosestPointSeg s o) as [[c1 d1] d2]. destruct A as (D & E & N & M), B as (D1 & D2 & E1 & N1 & N1' & M1).
  cbn [fst snd]. rewrite !Seg2_GetPoint_R, !Distance2_R, !DistanceSq2_R, <- E1, <- E. repeat split; auto.
  - exists c, p. auto.
  - intros a b Aa <-. now apply M.
  - exists c1. eexists. split; [exact N1|]. split; [exact N1'|reflexivity].
Qed.
Print Assumptions C102_distances.
Theorem C102_tests (s o : seg2 R) (p : p2) (e : R) : proper_seg2 s -> proper_seg2 o ->
  (0 <= e -> (Seg2_Contains s p (e * e) = true <-> exists q, on_seg2 s q /\ dst q p <= e)) /\
  (Seg2_ContainsSeg s o (e * e) = Seg2_Contains s (s2a o) (e * e) && Seg2_Contains s (s2b o) (e * e)) /\
  (0 <= e -> (Seg2_ContainsSeg s o (e * e) = true <-> forall q, on_seg2 o q -> exists r, on_seg2 s r /\ dst r q <= e)) /\
  (Seg2_IntersectsSeg s o e = true <-> exists a b, on_seg2 s a /\ on_seg2 o b /\ dst a b <= e) /\
  (Seg2_Equals s o e = true <->
    let near a b := Rabs (x2 a - x2 b) < e /\ Rabs (y2 a - y2 b) < e in near (s2a s) (s2a o) /\ near (s2b s) (s2b o) \/ near (s2a s) (s2b o) /\ near (s2b s) (s2a o)).
Proof.
  intros P Q.
  assert (CN : forall p, 0 <= e -> (Seg2_Contains s p (e * e) = true <-> exists q, on_seg2 s q /\ dst q p <= e)).
  { clear p. intros p E. unfold Seg2_Contains. assert (A := C102_point s p P). destruct (Seg2_ClosestPoint s p) as [c d]. destruct A as (_ & _ & N & M). cbn [fst]. rewrite DistanceSq2_R. rsimpl. rewrite Rleb_true.
    assert (D := dst_pos c p). split.
    - intros L. exists c. split; [exact N|]. apply Rnot_lt_le. intros L'. nra.
    - intros (q & Sq & L). assert (dst c p <= e) by (apply Rle_trans with (dst q p); auto). apply Rmult_le_compat; lra. }
  split; [apply CN|]. split; [reflexivity|]. split; [|split].
  - intros E. unfold Seg2_ContainsSeg. rewrite andb_true_iff, !CN by exact E. split.
    + intros [(qa & Sa & La) (qb & Sb & Lb)] q (t & T & ->). destruct Sa as (ta & Ta & ->), Sb as (tb & Tb & ->).
      exists (pl (s2a s) (sc ((1 - t) * ta + t * tb) (mi (s2b s) (s2a s)))). split; [exists ((1 - t) * ta + t * tb); split; [split; nra|reflexivity]|].
      rewrite <- up_dst in *. set (u := minus (up (pl (s2a s) (sc ta (mi (s2b s) (s2a s))))) (up (s2a o))). set (v := minus (up (pl (s2a s) (sc tb (mi (s2b s) (s2a s))))) (up (s2b o))).
      fold (norm u) in La. fold (norm v) in Lb. unfold dist.
      match goal with |- norm ?x <= _ => replace x with (plus (scale (1 - t) u) (scale t v)) by (unfold u, v, up, pl, sc, mi; gunf; cbn [x2 y2 vx vy vz]; f_equal; ring) end.
      apply Rle_trans with (norm (scale (1 - t) u) + norm (scale t v)); [apply norm_triangle|]. rewrite !norm_scale, !Rabs_right by lra. unfold dist in La, Lb. fold u in La. fold v in Lb. nra.
    + intros H. split; apply H; [exists 0|exists 1]; split; try lra; apply v2_ext; unfold pl, sc, mi; cbn; ring.
  - unfold Seg2_IntersectsSeg. rsimpl. rewrite Rleb_true. destruct (C102_distances s o p P Q) as (_ & _ & [(a & b & Sa & Ob & E) M] & _). split.
    + intros L. exists a, b. rewrite E. auto.
    + intros (a' & b' & Sa' & Ob' & L). apply Rle_trans with (dst a' b'); auto.
  - unfold Seg2_Equals, Equals2. rewrite orb_true_iff, !andb_true_iff. unfold EqualAbs. rsimpl. rewrite !Rltb_true. rewrite !ScalarProofs.Abs_R. cbv zeta. tauto.
Qed.
Print Assumptions C102_tests.
Example C102_witness : proper_seg2 (Seg2 (V2 0 0) (V2 2 0)) /\ proper_seg2 (Seg2 (V2 3 1) (V2 3 5)).
Proof. split; intros E; injection E; intros; lra. Qed.
(** Length, direction, extreme points, projection, translation, transform. *)
Lemma LengthSq2_R a : LengthSq2 a = dt a a. Proof. reflexivity. Qed.
Theorem C102_forms (s : seg2 R) (d e : p2) (k : R) (m : mat34 R) :
  (0 <= k <= 1 -> on_seg2 s (Seg2_GetPoint s k)) /\ (forall q, on_seg2 s q -> exists k, 0 <= k <= 1 /\ Seg2_GetPoint s k = q) /\
  Seg2_GetPoint s 0 = s2a s /\ Seg2_GetPoint s 1 = s2b s /\ Seg2_CenterPoint s = Seg2_GetPoint s (1 / 2) /\
  (s2a (Seg2_Reverse s) = s2b s /\ s2b (Seg2_Reverse s) = s2a s /\ forall q, on_seg2 (Seg2_Reverse s) q <-> on_seg2 s q) /\
  Seg2_Length s = dst (s2a s) (s2b s) /\ Seg2_LengthSq s = dst (s2a s) (s2b s) * dst (s2a s) (s2b s) /\
  (1 / 1000 < dst (s2b s) (s2a s) -> nrm (Seg2_Dir s) = 1 /\ mi (s2b s) (s2a s) = sc (dst (s2b s) (s2a s)) (Seg2_Dir s)) /\
  (on_seg2 s (Seg2_ExtremePoint s d) /\ forall q, on_seg2 s q -> dt q d <= dt (Seg2_ExtremePoint s d) d) /\
  Seg2_ExtremePointDist s d = (Seg2_ExtremePoint s d, dt (Seg2_ExtremePoint s d) d) /\
  (let '(lo, hi) := Seg2_ProjectToAxis s d in forall x, lo <= x <= hi <-> exists q, on_seg2 s q /\ dt d q = x) /\
  (forall q, on_seg2 (Seg2_Translate s e) (pl q e) <-> on_seg2 s q) /\
  (forall k, Seg2_GetPoint (Seg2_Transform s m) k = TransformPos2 m (Seg2_GetPoint s k)).
Proof.
  assert (RE : forall a b x, 0 <= x <= 1 -> a + x * (b - a) <= Rmax a b).
  { intros a b x X. unfold Rmax. destruct (Rle_dec a b); nra. }
  split; [rewrite Seg2_GetPoint_R; intros K; exists k; auto|]. split; [intros q (t & T & ->); exists t; rewrite Seg2_GetPoint_R; auto|].
  split; [rewrite Seg2_GetPoint_R; apply v2_ext; unfold pl, sc, mi; cbn; ring|]. split; [rewrite Seg2_GetPoint_R; apply v2_ext; unfold pl, sc, mi; cbn; ring|].
  split; [apply v2_ext; unfold Seg2_CenterPoint, Seg2_GetPoint, muls2, add2, smul2, nhalf; rsimpl; cbn [x2 y2]; field|].
  split. { split; [reflexivity|]. split; [reflexivity|]. intros q. split; intros (t & T & ->); exists (1 - t); (split; [lra|]); apply v2_ext; unfold pl, sc, mi; cbn; ring. }
  split; [apply Distance2_R|]. split; [apply DistanceSq2_R|]. split.
  { intros L. unfold Seg2_Dir, Normalized2, Normalize2. rewrite LengthSq2_R. rsimpl. set (v := sub2 (s2b s) (s2a s)). change (dst (s2b s) (s2a s)) with (nrm v) in *.
    assert (N : nrm v * nrm v = dt v v) by (apply sqrt_sqrt; unfold dt; nra). assert (LL : 1 / 1000000 < dt v v) by (rewrite <- N; nra).
    destruct (Rltb_spec (1 / 1000000) (dt v v)); [|lra]. cbn [fst]. change (sqrt (dt v v)) with (nrm v). assert (nrm v <> 0) by lra. split.
    - unfold nrm at 1. replace (dt _ _) with 1; [apply sqrt_1|]. unfold muls2. unfold dt. cbn [x2 y2]. rsimpl. transitivity (dt v v / (nrm v * nrm v)); [rewrite <- N; field; lra|]. unfold dt. field. lra.
    - unfold muls2, sc. apply v2_ext; cbn [x2 y2]; rsimpl; change (mi (s2b s) (s2a s)) with v; field; lra. }
  assert (DOT : forall q, on_seg2 s q -> exists t, 0 <= t <= 1 /\ dt q d = dt (s2a s) d + t * (dt (s2b s) d - dt (s2a s) d)).
  { intros q (t & T & ->). exists t. split; [exact T|]. unfold dt, pl, sc, mi. cbn [x2 y2]. ring. }
  assert (ENDS : on_seg2 s (s2a s) /\ on_seg2 s (s2b s)) by (split; [exists 0|exists 1]; (split; [lra|]); apply v2_ext; unfold pl, sc, mi; cbn; ring).
  assert (ID : Dot2 d (sub2 (s2b s) (s2a s)) = dt (s2b s) d - dt (s2a s) d) by (unfold Dot2, sub2, dt; rsimpl; cbn [x2 y2]; ring).
  split. { unfold Seg2_ExtremePoint. rewrite ID. rsimpl. destruct (Rleb_spec 0 (dt (s2b s) d - dt (s2a s) d)); (split; [tauto|]); intros q Q; destruct (DOT q Q) as (t & T & ->); nra. }
  split; [reflexivity|]. split.
  { unfold Seg2_ProjectToAxis. change (Dot2 d (s2a s)) with (dt d (s2a s)). change (Dot2 d (s2b s)) with (dt d (s2b s)). rsimpl.
    assert (C : forall q, dt d q = dt q d) by (intros q; unfold dt; ring). rewrite !C.
    destruct (Rltb_spec (dt (s2b s) d) (dt (s2a s) d)) as [L|L]; intros x; (split; [|intros (q & Q & <-); rewrite C; destruct (DOT q Q) as (t & T & ->); nra]).
    - intros X. set (t := (dt (s2a s) d - x) / (dt (s2a s) d - dt (s2b s) d)). exists (pl (s2a s) (sc t (mi (s2b s) (s2a s)))). split.
      + exists t. split; [|reflexivity]. unfold t. split; [apply Rmult_le_pos; [lra|left; apply Rinv_0_lt_compat; lra]|]. apply Rmult_le_reg_r with (dt (s2a s) d - dt (s2b s) d); [lra|]. unfold Rdiv. rewrite Rmult_assoc, Rinv_l by lra. lra.
      + transitivity (dt (s2a s) d + t * (dt (s2b s) d - dt (s2a s) d)); [unfold dt, pl, sc, mi; cbn [x2 y2]; ring|unfold t; field; lra].
    - intros X. destruct (Req_dec (dt (s2a s) d) (dt (s2b s) d)) as [E|E].
      + exists (s2a s). split; [tauto|]. rewrite C. lra.
      + set (t := (dt (s2a s) d - x) / (dt (s2a s) d - dt (s2b s) d)). exists (pl (s2a s) (sc t (mi (s2b s) (s2a s)))). split.
        * exists t. split; [|reflexivity]. replace t with ((x - dt (s2a s) d) / (dt (s2b s) d - dt (s2a s) d)) by (unfold t; field; lra). split; [apply Rmult_le_pos; [lra|left; apply Rinv_0_lt_compat; lra]|].
          apply Rmult_le_reg_r with (dt (s2b s) d - dt (s2a s) d); [lra|]. unfold Rdiv. rewrite Rmult_assoc, Rinv_l by lra. lra.
        * transitivity (dt (s2a s) d + t * (dt (s2b s) d - dt (s2a s) d)); [unfold dt, pl, sc, mi; cbn [x2 y2]; ring|unfold t; field; lra]. }
  split.
  { intros q. unfold on_seg2, Seg2_Translate, add2, pl, sc, mi. cbn [s2a s2b x2 y2]. rsimpl. destruct q as [qx qy]. cbn [x2 y2].
    split; intros (t & T & E); exists t; (split; [exact T|]); injection E as E1 E2; apply v2_ext; cbn [x2 y2]; rewrite ?E1, ?E2; try ring; lra. }
  intros k'. apply v2_ext; unfold Seg2_GetPoint, Seg2_Transform, TransformPos2, add2, smul2; rsimpl; cbn [x2 y2 s2a s2b]; ring.
Qed.
Print Assumptions C102_forms.
(** [RangesOverlap] for two non-empty ranges; [IntervalIntersection] gives the common range. *)
Theorem C102_ranges (a b c d : R) : a <= b -> c <= d ->
  (RangesOverlap a b c d = true <-> exists x, a <= x <= b /\ c <= x <= d) /\
  match IntervalIntersection a b c d with
  | (0%nat, o) => o = None /\ ~ exists x, a <= x <= b /\ c <= x <= d
  | (n, Some (lo, hi)) => (forall x, lo <= x <= hi <-> a <= x <= b /\ c <= x <= d) /\ (n = 1%nat /\ lo = hi \/ n = 2%nat /\ lo <= hi)
  | (_, None) => False
  end.
Proof.
  intros A C. split.
  - unfold RangesOverlap. rsimpl. rewrite andb_true_iff, !Rleb_true. split; [intros [L M]; exists (Rmax a c); unfold Rmax; destruct (Rle_dec a c); lra|intros (x & X & Y); lra].
  - unfold IntervalIntersection. rsimpl. rewrite ?Max_R, ?Min_R. destruct (Rltb_spec b c), (Rltb_spec d a); cbn [orb]; try (split; [reflexivity|intros (x & X & Y); lra]).
    destruct (Rltb_spec c b); [destruct (Rltb_spec a d)|].
    + split; [intros x; unfold Rmax, Rmin; destruct (Rle_dec a c), (Rle_dec b d); lra|]. right. split; [reflexivity|]. unfold Rmax, Rmin; destruct (Rle_dec a c), (Rle_dec b d); lra.
    + split; [intros x; lra|]. left. auto.
    + split; [intros x; lra|]. left. auto.
Qed.
Print Assumptions C102_ranges.
