(** Properties C43 (closest points and distances between points, lines, rays and segments) and C75 (their conversions,
    transforms, projections and containment tests), over the reals. *)
From Coq Require Import Reals Lra Psatz Bool ZArith.
From Verif Require Import Num NumR ScalarModel ScalarProofs Vec3Model Vec3Props GeoTypes GeoSpec GeoLemmas AabbSpec MatModel MatSpec MatProofs MatProofs2
  LineModel LineSpec LineProofs LineProofs2.
Open Scope R_scope.

Lemma proper_dir (s : segment R) : proper_seg s -> dot (sdir s) (sdir s) <> 0.
Proof.
  intros P Z. apply dot_zero in Z. apply P. destruct s as [[a1 a2 a3] [b1 b2 b3]]. unfold sdir, origin in Z. cbn in Z. injection Z as Z1 Z2 Z3. cbn.
  apply vec_ext; cbn [vx vy vz]; lra.
Qed.
Lemma set_line l : forall x, on_line l x <-> exists s, Iall s /\ x = along (lpos l) (ldir l) s.
Proof. intros x. split; [intros [t E]; exists t; split; [exact I|exact E]|intros (t & _ & E); now exists t]. Qed.
Lemma set_ray r : forall x, on_ray r x <-> exists s, Ipos s /\ x = along (rpos r) (rdir r) s.
Proof. intros x. split; intros (t & A & E); now exists t. Qed.
Lemma set_seg s : forall x, on_segment s x <-> exists k, Iunit k /\ x = along (seg_a s) (sdir s) k.
Proof. intros x. split; intros (t & A & E); exists t; (split; [exact A|exact E]). Qed.
Lemma good_pair (A B : pt -> Prop) p u q v I J res : (forall x, A x <-> exists s, I s /\ x = along p u s) -> (forall x, B x <-> exists s, J s /\ x = along q v s) ->
  good p u q v I J res -> let '(c, d, d2) := res in I d /\ J d2 /\ c = along p u d /\ nearest_pair A B c (along q v d2).
Proof.
  intros HA HB. destruct res as [[c d] d2]. intros (-> & Id & Jd & M). repeat split; auto.
  - apply HA. now exists d.
  - apply HB. now exists d2.
  - intros a' b' Aa Bb. apply HA in Aa. apply HB in Bb. destruct Aa as (s & Is & ->), Bb as (t & It & ->). apply dist_le. now apply M.
Qed.

(** ** C43: nearest pairs.  [d] and [d2] are the parameters of the two points: distance along a line or ray, fraction of a
    segment. *)
Theorem C43_line_line (l o : line R) : unitv (ldir l) -> unitv (ldir o) ->
  let '(c, d, d2) := Line_ClosestPointLine l o in c = along (lpos l) (ldir l) d /\ nearest_pair (on_line l) (on_line o) c (along (lpos o) (ldir o) d2).
Proof.
  intros U V. assert (G := good_pair _ _ _ _ _ _ _ _ _ (set_line l) (set_line o) (line_line_good l o ltac:(unfold unitv in V; lra))).
  destruct (Line_ClosestPointLine l o) as [[c d] d2]. tauto.
Qed.
Theorem C43_line_ray (l : line R) (o : ray R) : unitv (ldir l) -> unitv (rdir o) ->
  let '(c, d, d2) := Line_ClosestPointRay l o in 0 <= d2 /\ c = along (lpos l) (ldir l) d /\ nearest_pair (on_line l) (on_ray o) c (along (rpos o) (rdir o) d2).
Proof.
  intros U V. assert (G := good_pair _ _ _ _ _ _ _ _ _ (set_line l) (set_ray o) (line_ray_good l o U ltac:(unfold unitv in V; lra))).
  destruct (Line_ClosestPointRay l o) as [[c d] d2]. unfold Ipos in G. tauto.
Qed.
Theorem C43_line_segment (l : line R) (o : segment R) : unitv (ldir l) -> proper_seg o ->
  let '(c, d, d2) := Line_ClosestPointSeg l o in
  0 <= d2 <= 1 /\ c = along (lpos l) (ldir l) d /\ nearest_pair (on_line l) (on_segment o) c (along (seg_a o) (minus (seg_b o) (seg_a o)) d2).
Proof.
  intros U V. assert (G := good_pair _ _ _ _ _ _ _ _ _ (set_line l) (set_seg o) (line_seg_good l o U (proper_dir o V))).
  destruct (Line_ClosestPointSeg l o) as [[c d] d2]. unfold Iunit in G. tauto.
Qed.
Theorem C43_ray_line (r : ray R) (o : line R) : unitv (rdir r) -> unitv (ldir o) ->
  let '(c, d, d2) := Ray_ClosestPointLine r o in 0 <= d /\ c = along (rpos r) (rdir r) d /\ nearest_pair (on_ray r) (on_line o) c (along (lpos o) (ldir o) d2).
Proof.
  intros U V. assert (G := good_pair _ _ _ _ _ _ _ _ _ (set_ray r) (set_line o) (ray_line_good r o U V)).
  destruct (Ray_ClosestPointLine r o) as [[c d] d2]. unfold Ipos in G. tauto.
Qed.
Theorem C43_ray_ray (r o : ray R) : unitv (rdir r) -> unitv (rdir o) ->
  let '(c, d, d2) := Ray_ClosestPointRay r o in
  0 <= d /\ 0 <= d2 /\ c = along (rpos r) (rdir r) d /\ nearest_pair (on_ray r) (on_ray o) c (along (rpos o) (rdir o) d2).
Proof.
  intros U V. assert (G := good_pair _ _ _ _ _ _ _ _ _ (set_ray r) (set_ray o) (ray_ray_good r o U V)).
  destruct (Ray_ClosestPointRay r o) as [[c d] d2]. exact G.
Qed.
Theorem C43_ray_segment (r : ray R) (o : segment R) : unitv (rdir r) -> proper_seg o ->
  let '(c, d, d2) := Ray_ClosestPointSeg r o in
  0 <= d /\ 0 <= d2 <= 1 /\ c = along (rpos r) (rdir r) d /\ nearest_pair (on_ray r) (on_segment o) c (along (seg_a o) (minus (seg_b o) (seg_a o)) d2).
Proof.
  intros U V. assert (G := good_pair _ _ _ _ _ _ _ _ _ (set_ray r) (set_seg o) (ray_seg_good r o U (proper_dir o V))).
  destruct (Ray_ClosestPointSeg r o) as [[c d] d2]. exact G.
Qed.
Theorem C43_segment_line (s : segment R) (o : line R) : proper_seg s -> unitv (ldir o) ->
  let '(c, d, d2) := Seg_ClosestPointLine s o in
  0 <= d <= 1 /\ c = along (seg_a s) (minus (seg_b s) (seg_a s)) d /\ nearest_pair (on_segment s) (on_line o) c (along (lpos o) (ldir o) d2).
Proof.
  intros U V. assert (G := good_pair _ _ _ _ _ _ _ _ _ (set_seg s) (set_line o) (seg_line_good s o (proper_dir s U) V)).
  destruct (Seg_ClosestPointLine s o) as [[c d] d2]. unfold Iunit in G. tauto.
Qed.
Theorem C43_segment_ray (s : segment R) (o : ray R) : proper_seg s -> unitv (rdir o) ->
  let '(c, d, d2) := Seg_ClosestPointRay s o in
  0 <= d <= 1 /\ 0 <= d2 /\ c = along (seg_a s) (minus (seg_b s) (seg_a s)) d /\ nearest_pair (on_segment s) (on_ray o) c (along (rpos o) (rdir o) d2).
Proof.
  intros U V. assert (G := good_pair _ _ _ _ _ _ _ _ _ (set_seg s) (set_ray o) (seg_ray_good s o (proper_dir s U) V)).
  destruct (Seg_ClosestPointRay s o) as [[c d] d2]. exact G.
Qed.
Theorem C43_segment_segment (s o : segment R) : proper_seg s -> proper_seg o ->
  let '(c, d, d2) := Seg_ClosestPointSeg s o in
  0 <= d <= 1 /\ 0 <= d2 <= 1 /\ c = along (seg_a s) (minus (seg_b s) (seg_a s)) d /\
  nearest_pair (on_segment s) (on_segment o) c (along (seg_a o) (minus (seg_b o) (seg_a o)) d2).
Proof.
  intros U V. assert (G := good_pair _ _ _ _ _ _ _ _ _ (set_seg s) (set_seg o) (seg_seg_good s o (proper_dir s U) (proper_dir o V))).
  destruct (Seg_ClosestPointSeg s o) as [[c d] d2]. exact G.
Qed.
Print Assumptions C43_segment_segment.
Theorem C43_point (l : line R) (r : ray R) (s : segment R) (p : pt) : unitv (ldir l) -> unitv (rdir r) -> proper_seg s ->
  (let '(c, d) := Line_ClosestPoint l p in c = along (lpos l) (ldir l) d /\ nearest (on_line l) p c) /\
  (let '(c, d) := Ray_ClosestPoint r p in 0 <= d /\ c = along (rpos r) (rdir r) d /\ nearest (on_ray r) p c) /\
  (let '(c, d) := Seg_ClosestPoint s p in 0 <= d <= 1 /\ c = along (seg_a s) (minus (seg_b s) (seg_a s)) d /\ nearest (on_segment s) p c).
Proof.
  intros U V W. rewrite Line_ClosestPoint_R, Ray_ClosestPoint_R, Seg_ClosestPoint_R. split; [|split].
  - split; [reflexivity|]. split; [now eexists|]. intros a' [t ->]. apply dist_le. now apply line_near.
  - split; [apply Rmax_l|]. split; [reflexivity|]. split; [eexists; split; [apply Rmax_l|reflexivity]|]. intros a' (t & T & ->). apply dist_le. now apply ray_near.
  - split; [apply clamp01_in|]. split; [reflexivity|]. split; [eexists; split; [apply clamp01_in|reflexivity]|]. intros a' (t & T & ->). apply dist_le.
    apply seg_near; [now apply proper_dir|exact T].
Qed.
Print Assumptions C43_point.

(** Distances. *)
Definition single (p q : pt) : Prop := q = p.
Lemma nearest_distance A p a : nearest A p a -> distance_is A (single p) (dist a p).
Proof. intros [Aa M]. split; [exists a, p; repeat split; auto|]. intros x y Ax ->. now apply M. Qed.
Lemma pair_distance A B a b : nearest_pair A B a b -> distance_is A B (dist a b).
Proof. intros (Aa & Bb & M). split; [now exists a, b|exact M]. Qed.
Lemma distance_sym A B x : distance_is A B x -> distance_is B A x.
Proof. intros [(a & b & Aa & Bb & E) M]. split; [exists b, a; rewrite dist_sym; auto|]. intros b' a' B' A'. rewrite dist_sym. now apply M. Qed.
Lemma distance_fat (A B : pt -> Prop) x r : distance_is A B x -> 0 <= r -> distance_is A (fun p => exists q, B q /\ dist q p <= r) (Rmax 0 (x - r)).
Proof.
  intros [(a & b & Aa & Bb & E) M] Hr. assert (X : 0 <= x) by (rewrite <- E; apply norm_pos). split.
  - destruct (Rle_or_lt x r).
    + exists a, a. split; [exact Aa|]. split; [exists b; split; [exact Bb|rewrite dist_sym; lra]|]. rewrite Rmax_left by lra. now apply dist_zero.
    + set (k := r / x). exists a, (plus b (scale k (minus a b))). assert (K : 0 <= k <= 1).
      { unfold k. split; [apply Rmult_le_pos; [lra|apply Rlt_le, Rinv_0_lt_compat; lra]|]. apply Rmult_le_reg_r with x; [lra|]. unfold Rdiv. rewrite Rmult_assoc, Rinv_l; lra. }
      split; [exact Aa|]. split.
      * exists b. split; [exact Bb|]. unfold dist. replace (minus b (plus b (scale k (minus a b)))) with (scale (- k) (minus a b)) by (gunf; apply vec_ext; cbn [vx vy vz]; ring).
        rewrite norm_scale. fold (dist a b). rewrite E, Rabs_Ropp, Rabs_right by lra. unfold k. right. field. lra.
      * rewrite Rmax_right by lra. unfold dist. replace (minus a (plus b (scale k (minus a b)))) with (scale (1 - k) (minus a b)) by (gunf; apply vec_ext; cbn [vx vy vz]; ring).
        rewrite norm_scale. fold (dist a b). rewrite E, Rabs_right by lra. unfold k. field. lra.
  - intros a' y Aa' (q & Bq & D). assert (H := M a' q Aa' Bq). assert (T := dist_triangle a' y q). rewrite (dist_sym y q) in T.
    assert (P : 0 <= dist a' y) by apply norm_pos. apply Rmax_lub; lra.
Qed.
Theorem C43_distances_line (l o : line R) (r : ray R) (s : segment R) (p : pt) : unitv (ldir l) -> unitv (ldir o) -> unitv (rdir r) -> proper_seg s ->
  distance_is (on_line l) (single p) (fst (Line_Distance l p)) /\
  distance_is (on_line l) (on_line o) (fst (fst (Line_DistanceLine l o))) /\
  distance_is (on_line l) (on_ray r) (fst (fst (Line_DistanceRay l r))) /\
  distance_is (on_line l) (on_segment s) (fst (fst (Line_DistanceSeg l s))).
Proof.
  intros U V W X. destruct (C43_point l r s p U W X) as (A & _ & _). assert (B := C43_line_line l o U V). assert (C := C43_line_ray l r U W). assert (D := C43_line_segment l s U X).
  unfold Line_Distance, Line_DistanceLine, Line_DistanceRay, Line_DistanceSeg.
  destruct (Line_ClosestPoint l p) as [c d], (Line_ClosestPointLine l o) as [[c1 d1] e1], (Line_ClosestPointRay l r) as [[c2 d2] e2], (Line_ClosestPointSeg l s) as [[c3 d3] e3].
  cbn [fst snd]. rewrite Seg_GetPoint_R. split; [|split; [|split]]; try (apply nearest_distance; tauto); apply pair_distance; tauto.
Qed.
Theorem C43_distances_ray (r o : ray R) (l : line R) (s : segment R) (p : pt) : unitv (rdir r) -> unitv (rdir o) -> unitv (ldir l) -> proper_seg s ->
  distance_is (on_ray r) (single p) (fst (Ray_Distance r p)) /\
  distance_is (on_ray r) (on_ray o) (fst (fst (Ray_DistanceRay r o))) /\
  distance_is (on_ray r) (on_line l) (fst (fst (Ray_DistanceLine r l))) /\
  distance_is (on_ray r) (on_segment s) (fst (fst (Ray_DistanceSeg r s))).
Proof.
  intros U V W X. destruct (C43_point l r s p W U X) as (_ & A & _). assert (B := C43_ray_ray r o U V). assert (C := C43_ray_line r l U W). assert (D := C43_ray_segment r s U X).
  unfold Ray_Distance, Ray_DistanceRay, Ray_DistanceLine, Ray_DistanceSeg.
  destruct (Ray_ClosestPoint r p) as [c d], (Ray_ClosestPointRay r o) as [[c1 d1] e1], (Ray_ClosestPointLine r l) as [[c2 d2] e2], (Ray_ClosestPointSeg r s) as [[c3 d3] e3].
  cbn [fst snd]. rewrite Seg_GetPoint_R. split; [|split; [|split]]; try (apply nearest_distance; tauto); apply pair_distance; tauto.
Qed.
Theorem C43_distances_segment (s o : segment R) (l : line R) (r : ray R) (p : pt) : proper_seg s -> proper_seg o -> unitv (ldir l) -> unitv (rdir r) ->
  distance_is (on_segment s) (single p) (fst (Seg_Distance s p)) /\
  (forall x, distance_is (on_segment s) (single p) x -> Seg_DistanceSq s p = x * x) /\
  distance_is (on_segment s) (on_segment o) (fst (fst (Seg_DistanceSeg s o))) /\
  (forall x, distance_is (on_segment s) (on_segment o) x -> Seg_DistanceSqSeg s o = x * x) /\
  distance_is (on_segment s) (on_ray r) (fst (fst (Seg_DistanceRay s r))) /\
  distance_is (on_segment s) (on_line l) (fst (fst (Seg_DistanceLine s l))).
Proof.
  intros U V W X. destruct (C43_point l r s p W X U) as (_ & _ & A). assert (B := C43_segment_segment s o U V). assert (C := C43_segment_ray s r U X). assert (D := C43_line_segment l s W U).
  assert (Uq : forall P Q x y, distance_is P Q x -> distance_is P Q y -> x = y).
  { intros P Q x y [(a & b & Pa & Qb & <-) M] [(a' & b' & Pa' & Qb' & <-) M']. apply Rle_antisym; auto. }
  unfold Seg_Distance, Seg_DistanceSq, Seg_DistanceSeg, Seg_DistanceRay, Seg_DistanceSqSeg, Seg_DistanceLine.
  destruct (Seg_ClosestPoint s p) as [c d], (Seg_ClosestPointSeg s o) as [[c1 d1] e1], (Seg_ClosestPointRay s r) as [[c2 d2] e2], (Line_ClosestPointSeg l s) as [[c3 d3] e3].
  cbn [fst snd]. rewrite !Seg_GetPoint_R. change (@DistanceSq R Num_R) with sqd. fold (sdir s) in *. fold (sdir o) in *.
  destruct A as (A1 & A2 & A3), B as (B1 & B2 & B3 & B4), C as (C1 & C2 & C3 & C4), D as (D1 & D2 & D3).
  rewrite <- B3, <- C3. split; [|split; [|split; [|split; [|split]]]].
  - now apply nearest_distance.
  - intros x Hx. rewrite sqd_dist. now rewrite <- (Uq _ _ _ _ (nearest_distance _ _ _ A3) Hx).
  - now apply pair_distance.
  - intros x Hx. rewrite sqd_dist. now rewrite <- (Uq _ _ _ _ (pair_distance _ _ _ _ B4) Hx).
  - now apply pair_distance.
  - unfold Distance. rewrite DistanceSq_R. change (nsqrt (sqd ?a ?b)) with (dist a b). rewrite dist_sym. apply distance_sym. now apply pair_distance.
Qed.
Print Assumptions C43_distances_segment.

(** Distances to a sphere and to a capsule (a segment made thick). *)
Lemma fat_ext (A B C : pt -> Prop) x : (forall p, B p <-> C p) -> distance_is A B x -> distance_is A C x.
Proof. intros H [(a & b & Aa & Bb & E) M]. split; [exists a, b; rewrite <- H; auto|]. intros a' b' A' C'. apply M; [exact A'|now apply H]. Qed.
Lemma fat_sphere (o : sphere R) p : (exists q, single (spos o) q /\ dist q p <= srad o) <-> in_sphere o p.
Proof. unfold single, in_sphere. split; [intros (q & -> & D); exact D|intros D; eexists; split; [reflexivity|exact D]]. Qed.
Theorem C43_distance_sphere_capsule (l : line R) (r : ray R) (s : segment R) (o : sphere R) (c : capsule R) :
  unitv (ldir l) -> unitv (rdir r) -> proper_seg s -> 0 <= srad o -> 0 <= cap_r c -> proper_seg (cap_l c) ->
  distance_is (on_line l) (in_sphere o) (Line_DistanceSphere l o) /\ distance_is (on_ray r) (in_sphere o) (Ray_DistanceSphere r o) /\
  distance_is (on_segment s) (in_sphere o) (Seg_DistanceSphere s o) /\
  distance_is (on_line l) (in_capsule c) (Line_DistanceCapsule l c) /\ distance_is (on_ray r) (in_capsule c) (Ray_DistanceCapsule r c) /\
  distance_is (on_segment s) (in_capsule c) (Seg_DistanceCapsule s c).
Proof.
  intros U V W Ro Rc X. destruct (C43_distances_line l l r (cap_l c) (spos o) U U V X) as (A1 & _ & _ & A2).
  destruct (C43_distances_ray r r l (cap_l c) (spos o) V V U X) as (B1 & _ & _ & B2).
  destruct (C43_distances_segment s (cap_l c) l r (spos o) W X U V) as (D1 & _ & D2 & _).
  unfold Line_DistanceSphere, Ray_DistanceSphere, Seg_DistanceSphere, Line_DistanceCapsule, Ray_DistanceCapsule, Seg_DistanceCapsule. repeat rewrite Max_R.
  split; [|split; [|split; [|split; [|split]]]].
  - apply (fat_ext _ _ _ _ (fat_sphere o)), (distance_fat _ _ _ _ A1 Ro).
  - apply (fat_ext _ _ _ _ (fat_sphere o)), (distance_fat _ _ _ _ B1 Ro).
  - apply (fat_ext _ _ _ _ (fat_sphere o)), (distance_fat _ _ _ _ D1 Ro).
  - exact (distance_fat _ _ _ _ A2 Rc).
  - exact (distance_fat _ _ _ _ B2 Rc).
  - exact (distance_fat _ _ _ _ D2 Rc).
Qed.
Print Assumptions C43_distance_sphere_capsule.
(** LineSegment::Intersects(LineSegment, epsilon). *)
Theorem C43_segments_intersect (s o : segment R) (e : R) : proper_seg s -> proper_seg o ->
  (Seg_IntersectsSeg s o e = true <-> exists a b, on_segment s a /\ on_segment o b /\ dist a b <= e).
Proof.
  intros U V. destruct (C43_distances_segment s o (Ln origin (V3 1 0 0)) (Ry origin (V3 1 0 0)) origin U V ltac:(unfold unitv, dot; cbn; ring) ltac:(unfold unitv, dot; cbn; ring)) as (_ & _ & B & _).
  unfold Seg_IntersectsSeg. rsimpl. rewrite Rleb_true. destruct B as [(a & b & A1 & B1 & E) M]. split.
  - intros H. exists a, b. split; [exact A1|]. split; [exact B1|lra].
  - intros (a' & b' & Sa & Sb & L). eapply Rle_trans; [apply M; eassumption|exact L].
Qed.
Print Assumptions C43_segments_intersect.
(** The documentation of LineSegment::Distance(const Line&, d, d2) has d on the segment and d2 on the line; the code swaps
    them.  Segment from (0,1,0) to (4,1,0), line through (1,0,0) along z: the segment point is at fraction 1/4. *)
Lemma CPLL_orth (v0 v10 v2 v32 : pt) : dot v32 v10 = 0 -> dot v10 v10 * dot v32 v32 <> 0 ->
  ClosestPointLineLine v0 v10 v2 v32 = (- dot (minus v0 v2) v10 / dot v10 v10, dot (minus v0 v2) v32 / dot v32 v32).
Proof.
  intros O N. unfold ClosestPointLineLine. change (@Dot R Num_R) with dot. change (vsub v0 v2) with (minus v0 v2). rsimpl. rewrite O.
  destruct (Reqb_spec (dot v10 v10 * dot v32 v32 - 0 * 0) 0) as [E|E]; [lra|]. cbn [negb]. f_equal; field; split || idtac; intros Z; rewrite Z in N; lra.
Qed.
Definition w_seg : segment R := Seg (V3 0 1 0) (V3 4 1 0).
Definition w_line : line R := Ln (V3 1 0 0) (V3 0 0 1).
Ltac rnum := repeat match goal with
  | |- context [Rltb ?x ?y] => (rewrite (proj2 (Rltb_true x y)) by lra) || (rewrite (proj2 (Rltb_false x y)) by lra)
  | |- context [Rleb ?x ?y] => (rewrite (proj2 (Rleb_true x y)) by lra) || (rewrite (proj2 (Rleb_false x y)) by lra) end.
Lemma w_seg_line : Line_ClosestPointSeg w_line w_seg = (V3 1 0 0, 0, 1 / 4).
Proof.
  unfold Line_ClosestPointSeg. rewrite CPLL_orth by (unfold w_line, w_seg, dot, vsub; cbn; rsimpl; lra).
  assert (E1 : - dot (minus (lpos w_line) (seg_a w_seg)) (ldir w_line) / dot (ldir w_line) (ldir w_line) = 0) by (unfold w_line, w_seg, dot, minus; cbn; field).
  assert (E2 : dot (minus (lpos w_line) (seg_a w_seg)) (vsub (seg_b w_seg) (seg_a w_seg)) / dot (vsub (seg_b w_seg) (seg_a w_seg)) (vsub (seg_b w_seg) (seg_a w_seg)) = 1 / 4)
    by (unfold w_line, w_seg, dot, minus, vsub; cbn; rsimpl; field).
  rewrite E1, E2. rsimpl. rnum. f_equal. f_equal. rewrite Line_GetPoint_R, along_0. reflexivity.
Qed.
Theorem C43_segment_line_parameters_swapped_refuted : exists (s : segment R) (o : line R), proper_seg s /\ unitv (ldir o) /\
  let '(x, d, d2) := Seg_DistanceLine s o in
  dist (along (seg_a s) (minus (seg_b s) (seg_a s)) d2) (along (lpos o) (ldir o) d) = x /\
  x < dist (along (seg_a s) (minus (seg_b s) (seg_a s)) d) (along (lpos o) (ldir o) d2).
Proof.
  exists w_seg, w_line. split; [unfold proper_seg, w_seg; cbn; intros E; injection E; lra|]. split; [unfold unitv, w_line, dot; cbn; ring|].
  unfold Seg_DistanceLine. rewrite w_seg_line. cbv beta iota. rewrite Seg_GetPoint_R. fold (sdir w_seg). split.
  - rewrite along_0. reflexivity.
  - rewrite !dist_sqrt. apply sqrt_lt_1_alt. unfold sqd, along, sdir, w_seg, w_line. gunf. cbn. lra.
Qed.
Print Assumptions C43_segment_line_parameters_swapped_refuted.
(** Hypotheses are met by skew, parallel and overlapping primitives. *)
Example C43_witness : proper_seg w_seg /\ unitv (ldir w_line) /\ Line_ClosestPointSeg w_line w_seg = (V3 1 0 0, 0, 1 / 4) /\
  proper_seg (Seg (V3 0 0 0) (V3 1 0 0)) /\ proper_seg (Seg (V3 3 1 0) (V3 2 1 0)).
Proof.
  split; [unfold proper_seg, w_seg; cbn; intros E; injection E; lra|]. split; [unfold unitv, w_line, dot; cbn; ring|]. split; [apply w_seg_line|].
  split; unfold proper_seg; cbn; intros E; injection E; lra.
Qed.

(** ** C75: conversions, transforms, projections, containment *)
Definition image (f : pt -> pt) (A : pt -> Prop) (q : pt) : Prop := exists p, A p /\ q = f p.
Theorem C75_transforms (l : line R) (r : ray R) (s : segment R) (m : mat34 R) (a : mat3 R) (v : pt) q :
  (on_line (Line_Transform34 l m) q <-> image (apply34 m) (on_line l) q) /\ (on_ray (Ray_Transform34 r m) q <-> image (apply34 m) (on_ray r) q) /\
  (on_segment (Seg_Transform34 s m) q <-> image (apply34 m) (on_segment s) q) /\
  (on_line (Line_Transform3 l a) q <-> image (apply a) (on_line l) q) /\ (on_ray (Ray_Transform3 r a) q <-> image (apply a) (on_ray r) q) /\
  (on_segment (Seg_Transform3 s a) q <-> image (apply a) (on_segment s) q) /\
  (on_line (Line_Translate l v) q <-> image (fun p => plus p v) (on_line l) q) /\ (on_ray (Ray_Translate r v) q <-> image (fun p => plus p v) (on_ray r) q) /\
  (on_segment (Seg_Translate s v) q <-> image (fun p => plus p v) (on_segment s) q).
Proof.
  assert (A34 : forall p u t, along (apply34 m p) (apply (lin34 m) u) t = apply34 m (along p u t)) by (intros; unfold along, apply34, apply; gunf; apply vec_ext; cbn [vx vy vz]; ring).
  assert (A3 : forall p u t, along (apply a p) (apply a u) t = apply a (along p u t)) by (intros; unfold along, apply; gunf; apply vec_ext; cbn [vx vy vz]; ring).
  assert (AT : forall p u t, along (plus p v) u t = plus (along p u t) v) by (intros; unfold along; gunf; apply vec_ext; cbn [vx vy vz]; ring).
  assert (D34 : forall x y, minus (apply34 m y) (apply34 m x) = apply (lin34 m) (minus y x)) by (intros; unfold apply34, apply; gunf; apply vec_ext; cbn [vx vy vz]; ring).
  assert (D3 : forall x y, minus (apply a y) (apply a x) = apply a (minus y x)) by (intros; unfold apply; gunf; apply vec_ext; cbn [vx vy vz]; ring).
  assert (DT : forall x y, minus (plus y v) (plus x v) = minus y x) by (intros; gunf; apply vec_ext; cbn [vx vy vz]; ring).
  assert (G : forall (I : R -> Prop) p u p' u' (f : pt -> pt), (forall t, along p' u' t = f (along p u t)) ->
    ((exists t, I t /\ q = along p' u' t) <-> image f (fun x => exists t, I t /\ x = along p u t) q)).
  { intros I p u p' u' f E. unfold image. split.
    - intros (t & It & ->). exists (along p u t). split; [now exists t|apply E].
    - intros (x & (t & It & ->) & ->). exists t. split; [exact It|]. symmetry. apply E. }
  assert (L : forall (A B : pt -> Prop) f, (forall x, A x <-> B x) -> (image f A q <-> image f B q)).
  { intros A B f H. unfold image. split; intros (p & Hp & ->); exists p; (split; [now apply H|reflexivity]). }
  repeat split; try (rewrite set_line, (L _ _ _ (set_line l)); apply G; intros; symmetry; cbn; first [symmetry; apply A34|symmetry; apply A3|symmetry; apply AT]).
  all: try (rewrite set_ray, (L _ _ _ (set_ray r)); apply G; intros; symmetry; cbn; first [symmetry; apply A34|symmetry; apply A3|symmetry; apply AT]).
  all: rewrite set_seg, (L _ _ _ (set_seg s)); apply G; intros; unfold sdir; cbn [seg_a seg_b Seg_Transform34 Seg_Transform3 Seg_Translate].
  all: first [change (mulpos34 m) with (apply34 m); rewrite D34; apply A34 | change (mulv a) with (apply a); rewrite D3; apply A3 | change (@vadd R Num_R) with plus; rewrite DT; apply AT].
Qed.
Print Assumptions C75_transforms.
Example C75_transforms_witness : let m : mat34 R := M34 (M3 (V3 2 0 0) (V3 0 0 1) (V3 0 3 0)) (V3 1 1 1) in
  on_segment (Seg_Transform34 w_seg m) (V3 5 1 4) /\ on_segment w_seg (V3 2 1 0) /\ apply34 m (V3 2 1 0) = V3 5 1 4.
Proof.
  cbn zeta. split; [exists (1 / 2)|split; [exists (1 / 2)|]].
  - split; [lra|]. unfold w_seg, Seg_Transform34, mulpos34, plus, scale, minus. cbn. rsimpl. apply vec_ext; cbn; lra.
  - split; [lra|]. unfold w_seg, plus, scale, minus. cbn. apply vec_ext; cbn; lra.
  - unfold apply34, apply, plus, dot. cbn. apply vec_ext; cbn; lra.
Qed.

Lemma Seg_Dir_R (s : segment R) : eps6 < dist (seg_a s) (seg_b s) -> Seg_Dir s = scale (/ dist (seg_a s) (seg_b s)) (minus (seg_b s) (seg_a s)).
Proof. intros H. unfold Seg_Dir. rewrite dist_sym in *. apply Normalized_R, H. Qed.
(** Conversions.  A segment longer than 1e-6 gives a line or ray with a unit direction that contains it; a line or ray cut at
    parameters gives exactly the points between those parameters. *)
Theorem C75_from_segment (s : segment R) : eps6 < dist (seg_a s) (seg_b s) ->
  unitv (Seg_Dir s) /\ (forall p, on_segment s p -> on_line (Line_FromSegment s) p /\ on_ray (Ray_FromSegment s) p) /\
  (forall p, on_ray (Ray_FromSegment s) p -> dist (seg_a s) p <= Seg_Length s -> on_segment s p) /\
  Seg_Length s = dist (seg_a s) (seg_b s) /\ Seg_LengthSq s = Seg_Length s * Seg_Length s /\
  dist (seg_a s) (Seg_CenterPoint s) = dist (Seg_CenterPoint s) (seg_b s) /\ on_segment s (Seg_CenterPoint s) /\
  (forall p, on_segment (Seg_Reverse s) p <-> on_segment s p).
Proof.
  intros H. set (L := dist (seg_a s) (seg_b s)) in *. assert (E0 : 0 < eps6) by (unfold eps6; lra). assert (N : norm (minus (seg_b s) (seg_a s)) = L) by (unfold L; rewrite dist_sym; reflexivity).
  assert (U : unitv (Seg_Dir s)). { unfold unitv. rewrite (Seg_Dir_R s H). fold L. rewrite dot_scale_l, dot_scale_r, <- norm_sq, N. field. lra. }
  assert (AL : forall t, along (seg_a s) (Seg_Dir s) t = along (seg_a s) (sdir s) (t / L)).
  { intros t. rewrite (Seg_Dir_R s H). fold L. unfold along, sdir. gunf. apply vec_ext; cbn [vx vy vz]; field; lra. }
  assert (DL : forall k, dist (seg_a s) (along (seg_a s) (sdir s) k) = Rabs k * L).
  { intros k. unfold dist. replace (minus (seg_a s) (along (seg_a s) (sdir s) k)) with (scale (- k) (sdir s)) by (unfold along; gunf; apply vec_ext; cbn [vx vy vz]; ring).
    rewrite norm_scale, Rabs_Ropp. unfold sdir. now rewrite N. }
  assert (F : forall p, on_segment s p -> on_ray (Ray_FromSegment s) p).
  { intros p (k & Hk & ->). exists (k * L). split; [apply Rmult_le_pos; lra|]. cbn. rewrite AL. replace (k * L / L) with k by (field; lra). reflexivity. }
  split; [exact U|]. split; [intros p Hp; split; [|now apply F]; destruct (F p Hp) as (t & _ & ->); now exists t|].
  split. { intros p (t & Ht & ->) Hd. cbn in Hd |- *. rewrite AL in *. rewrite DL in Hd. change (Seg_Length s) with L in Hd.
    assert (0 <= t / L) by (apply Rmult_le_pos; [exact Ht|apply Rlt_le, Rinv_0_lt_compat; lra]). rewrite Rabs_pos_eq in Hd by assumption.
    exists (t / L). split; [split; [assumption|]|reflexivity]. apply Rmult_le_reg_r with L; [lra|]. rewrite Rmult_1_l. exact Hd. }
  split; [reflexivity|]. split; [unfold Seg_LengthSq, Seg_Length; rewrite DistanceSq_R, sqd_dist; reflexivity|].
  assert (C : Seg_CenterPoint s = along (seg_a s) (sdir s) (1 / 2)).
  { unfold Seg_CenterPoint, along, sdir, vmuls, vadd, nhalf. gunf. rsimpl. apply vec_ext; cbn [vx vy vz]; field. }
  split. { rewrite C, DL, dist_sym. unfold dist. replace (minus (seg_b s) (along (seg_a s) (sdir s) (1 / 2))) with (scale (1 / 2) (sdir s)) by (unfold along, sdir; gunf; apply vec_ext; cbn [vx vy vz]; field).
    rewrite norm_scale. unfold sdir. now rewrite N. }
  split; [exists (1 / 2); split; [lra|rewrite C; reflexivity]|].
  assert (RV : forall s' p, on_segment s' p -> on_segment (Seg_Reverse s') p).
  { intros s' p (k & Hk & ->). exists (1 - k). split; [lra|]. cbn. gunf. apply vec_ext; cbn [vx vy vz]; ring. }
  intros p. split; [|apply RV]. intros Hp. apply RV in Hp. destruct s; exact Hp.
Qed.
Print Assumptions C75_from_segment.
Example C75_from_segment_witness : eps6 < dist (seg_a w_seg) (seg_b w_seg).
Proof. replace (dist (seg_a w_seg) (seg_b w_seg)) with 4; [unfold eps6; lra|]. rewrite dist_sqrt. unfold w_seg, sqd. gunf. cbn. replace ((0 - 4) * (0 - 4) + (1 - 1) * (1 - 1) + (0 - 0) * (0 - 0)) with (4 * 4) by ring. rewrite sqrt_square; lra. Qed.

Theorem C75_cut (l : line R) (r : ray R) a b p : a <= b ->
  (on_segment (Line_ToSegment l a b) p <-> exists t, a <= t <= b /\ p = along (lpos l) (ldir l) t) /\
  (on_segment (Ray_ToSegment r a b) p <-> exists t, a <= t <= b /\ p = along (rpos r) (rdir r) t) /\
  (0 <= b -> (on_segment (Seg_FromLine l b) p <-> exists t, 0 <= t <= b /\ p = along (lpos l) (ldir l) t)) /\
  (0 <= b -> (on_segment (Seg_FromRay r b) p <-> exists t, 0 <= t <= b /\ p = along (rpos r) (rdir r) t)) /\
  (on_ray r p -> on_line (Line_FromRay r) p) /\ (on_ray (Ray_FromLine l) p -> on_line l p).
Proof.
  assert (G : forall x u c d, c <= d -> (on_segment (Seg (along x u c) (along x u d)) p <-> exists t, c <= t <= d /\ p = along x u t)).
  { intros x u c d H. split.
    - intros (k & Hk & ->). exists (c + k * (d - c)). split; [nra|]. cbn. unfold along. gunf. apply vec_ext; cbn [vx vy vz]; ring.
    - intros (t & Ht & ->). destruct (Req_dec c d) as [->|N].
      + exists 0. split; [lra|]. replace t with d by lra. cbn. unfold along. gunf. apply vec_ext; cbn [vx vy vz]; ring.
      + exists ((t - c) / (d - c)). split.
        * assert (0 < / (d - c)) by (apply Rinv_0_lt_compat; lra). split; [apply Rmult_le_pos; lra|]. apply Rmult_le_reg_r with (d - c); [lra|]. unfold Rdiv. rewrite Rmult_assoc, Rinv_l; lra.
        * cbn. unfold along. gunf. apply vec_ext; cbn [vx vy vz]; field; lra. }
  intros H. split; [apply (G _ _ _ _ H)|]. split; [apply (G _ _ _ _ H)|].
  split; [intros B; unfold Seg_FromLine; rewrite <- (along_0 (lpos l) (ldir l)) at 1; apply (G _ _ _ _ B)|].
  split; [intros B; unfold Seg_FromRay; rewrite <- (along_0 (rpos r) (rdir r)) at 1; apply (G _ _ _ _ B)|].
  split; [intros (t & _ & ->); now exists t|intros (t & _ & ->); now exists t].
Qed.
Print Assumptions C75_cut.
Example C75_cut_witness : on_segment (Line_ToSegment w_line (-1) 2) (V3 1 0 1).
Proof. exists (2 / 3). split; [lra|]. unfold Line_ToSegment, w_line, Line_GetPoint, vadd, smulv, plus, scale, minus. cbn. rsimpl. apply vec_ext; cbn; field. Qed.

(** ExtremePoint is a point of the segment farthest in the direction, and the distance form returns its projection. *)
Theorem C75_extreme (s : segment R) (v p : pt) : on_segment s p ->
  on_segment s (Seg_ExtremePoint s v) /\ dot p v <= dot (Seg_ExtremePoint s v) v /\
  Seg_ExtremePointDist s v = (Seg_ExtremePoint s v, dot (Seg_ExtremePoint s v) v).
Proof.
  intros (k & Hk & ->). unfold Seg_ExtremePointDist. split; [|split; [|reflexivity]].
  - unfold Seg_ExtremePoint. destruct (_ >=? _)%num; [exists 1|exists 0]; (split; [lra|]); gunf; apply vec_ext; cbn [vx vy vz]; ring.
  - unfold Seg_ExtremePoint. change (@Dot R Num_R) with dot. change (@vsub R Num_R) with minus. rsimpl. rewrite dot_plus_l, dot_scale_l, dot_minus_r, dot_minus_l.
    rewrite (dot_comm v (seg_b s)), (dot_comm v (seg_a s)). set (x := dot (seg_a s) v) in *. set (y := dot (seg_b s) v) in *.
    destruct (Rleb_spec 0 (y - x)); fold x y; nra.
Qed.
Print Assumptions C75_extreme.

(** Projection of a segment to an axis: exactly the values the axis takes on the segment. *)
Theorem C75_project_segment (s : segment R) (v : pt) x : let '(lo, hi) := Seg_ProjectToAxis s v in
  lo <= x <= hi <-> exists p, on_segment s p /\ dot v p = x.
Proof.
  unfold Seg_ProjectToAxis. change (@Dot R Num_R) with dot. set (f := dot v (seg_a s)). set (g := dot v (seg_b s)).
  assert (E : (exists p, on_segment s p /\ dot v p = x) <-> exists k, 0 <= k <= 1 /\ f + k * (g - f) = x).
  { split.
    - intros (p & (k & Hk & ->) & <-). exists k. split; [exact Hk|]. rewrite dot_plus_r, dot_scale_r, dot_minus_r. reflexivity.
    - intros (k & Hk & <-). eexists. split; [exists k; split; [exact Hk|reflexivity]|]. rewrite dot_plus_r, dot_scale_r, dot_minus_r. reflexivity. }
  assert (K : forall c d, c < d -> c <= x <= d -> exists k, 0 <= k <= 1 /\ c + k * (d - c) = x).
  { intros c d L B. exists ((x - c) / (d - c)). assert (0 < / (d - c)) by (apply Rinv_0_lt_compat; lra). split; [split|].
    - apply Rmult_le_pos; lra.
    - apply Rmult_le_reg_r with (d - c); [lra|]. unfold Rdiv. rewrite Rmult_assoc, Rinv_l; lra.
    - field. lra. }
  rsimpl. destruct (Rltb_spec g f) as [L|L]; rewrite E; split.
  - intros B. destruct (K g f L B) as (k & Hk & Ek). exists (1 - k). split; [lra|]. lra.
  - intros (k & Hk & <-). nra.
  - intros B. destruct (Rle_lt_or_eq_dec f g ltac:(lra)) as [L'|L']; [now apply K|]. exists 0. split; lra.
  - intros (k & Hk & <-). nra.
Qed.
Print Assumptions C75_project_segment.
(** Projection of a line: all of the axis unless the two are perpendicular; with exactly perpendicular directions the one
    value they all share. *)
Theorem C75_project_line (l : line R) (v : pt) :
  (IsPerpendicular (ldir l) v (1 / 100000) = false -> Line_ProjectToAxis l v = (MInf, PInf) /\ forall x, exists p, on_line l p /\ dot v p = x) /\
  (dot (ldir l) v = 0 -> exists c, Line_ProjectToAxis l v = (Fin c, Fin c) /\ forall p, on_line l p -> dot v p = c).
Proof.
  assert (L5 : nlit 1 100000 = 1 / 100000) by now rewrite nlit_R.
  unfold Line_ProjectToAxis. rewrite L5. split.
  - intros P. rewrite P. split; [reflexivity|]. intros x. assert (D : dot (ldir l) v <> 0).
    { intros Z. unfold IsPerpendicular in P. change (@Dot R Num_R) with dot in P. rewrite Z in P. rsimpl. apply Rleb_false in P.
      change (@LengthSq R Num_R) with (fun a : pt => dot a a) in P. cbv beta in P. pose proof (dot_pos (ldir l)). pose proof (dot_pos v). assert (0 <= dot (ldir l) (ldir l) * dot v v) by now apply Rmult_le_pos. nra. }
    exists (along (lpos l) (ldir l) ((x - dot v (lpos l)) / dot (ldir l) v)). split; [eexists; reflexivity|].
    unfold along. rewrite dot_plus_r, dot_scale_r, (dot_comm v (ldir l)). field. exact D.
  - intros Z. assert (P : IsPerpendicular (ldir l) v (1 / 100000) = true).
    { unfold IsPerpendicular. change (@Dot R Num_R) with dot. rewrite Z. rsimpl. apply Rleb_true.
      change (@LengthSq R Num_R) with (fun a : pt => dot a a). cbv beta. pose proof (dot_pos (ldir l)). pose proof (dot_pos v). assert (0 <= dot (ldir l) (ldir l) * dot v v) by now apply Rmult_le_pos. nra. }
    rewrite P. eexists. split; [reflexivity|]. intros p (t & ->). unfold along. rewrite dot_plus_r, dot_scale_r, (dot_comm v (ldir l)), Z. change (@Dot R Num_R) with dot. ring.
Qed.
Print Assumptions C75_project_line.
(** Projection of a ray. *)
Theorem C75_project_ray (r : ray R) (v : pt) : 1 / 10000 < dot v (rdir r) \/ dot v (rdir r) = 0 ->
  let '(lo, hi) := Ray_ProjectToAxis r v in forall x, in_range lo hi x <-> exists p, on_ray r p /\ dot v p = x.
Proof.
  intros H. unfold Ray_ProjectToAxis. change (@Dot R Num_R) with dot. rewrite !nlit_R. rsimpl. set (d := dot v (rdir r)) in *.
  assert (E : forall t, dot v (along (rpos r) (rdir r) t) = dot v (rpos r) + t * d) by (intros; unfold along; rewrite dot_plus_r, dot_scale_r; reflexivity).
  destruct (Rltb_spec (1 / 10000) d) as [L|L].
  - intros x. unfold in_range. split.
    + intros [B _]. exists (along (rpos r) (rdir r) ((x - dot v (rpos r)) / d)). split.
      * eexists. split; [|reflexivity]. apply Rmult_le_pos; [lra|]. apply Rlt_le, Rinv_0_lt_compat; lra.
      * rewrite E. field. lra.
    + intros (p & (t & Ht & ->) & <-). rewrite E. split; [nra|exact I].
  - destruct H as [H|Z]; [lra|]. rewrite Z in *. destruct (Rltb_spec 0 (- (10000 / 1))) as [L'|L']; [lra|]. intros x. unfold in_range. split.
    + intros B. exists (rpos r). split; [exists 0; split; [lra|now rewrite along_0]|lra].
    + intros (p & (t & Ht & ->) & <-). rewrite E. lra.
Qed.
Print Assumptions C75_project_ray.
(** For rays pointing against the axis the code's threshold is -1e4 instead of -1e-4: the range collapses to the origin. *)
Theorem C75_project_ray_negative_refuted : exists (r : ray R) (v : pt), unitv (rdir r) /\ unitv v /\
  let '(lo, hi) := Ray_ProjectToAxis r v in ~ forall x, (exists p, on_ray r p /\ dot v p = x) -> in_range lo hi x.
Proof.
  exists (Ry (V3 0 0 0) (V3 (-1) 0 0)), (V3 1 0 0). split; [unfold unitv, dot; cbn; ring|]. split; [unfold unitv, dot; cbn; ring|].
  unfold Ray_ProjectToAxis. rewrite !nlit_R. unfold Dot. cbn. rsimpl. rnum. intros H. specialize (H (-1)). cbn in H.
  enough (0 <= -1 <= 0) by lra. replace 0 with (1 * 0 + 0 * 0 + 0 * 0) at 1 2 by ring. apply H. exists (V3 (-1) 0 0). split; [exists 1; split; [lra|]; unfold along, plus, scale; cbn; apply vec_ext; cbn; ring|unfold dot; cbn; ring].
Qed.
Print Assumptions C75_project_ray_negative_refuted.
Example C75_project_witness : 1 / 10000 < dot (V3 1 0 0) (V3 1 0 0) /\ IsPerpendicular (ldir w_line) (V3 0 0 2 : pt) (1 / 100000) = false.
Proof. split; [unfold dot; cbn; lra|]. unfold IsPerpendicular, LengthSq, Dot, w_line. cbn. rsimpl. rnum. reflexivity. Qed.

(** Containment: a point is reported as contained when some point of the line, ray or segment has squared distance within the
    threshold (so a threshold e accepts points up to sqrt e away, not e as documented). *)
Theorem C75_contains (l : line R) (r : ray R) (s : segment R) (p : pt) (e : R) : unitv (ldir l) -> unitv (rdir r) -> proper_seg s ->
  (Line_Contains l p e = true <-> exists q, on_line l q /\ dist q p * dist q p <= e) /\
  (Ray_Contains r p e = true <-> exists q, on_ray r q /\ dist q p * dist q p <= e) /\
  (Seg_Contains s p e = true <-> exists q, on_segment s q /\ dist q p * dist q p <= e).
Proof.
  intros U V W. destruct (C43_point l r s p U V W) as (A & B & C). unfold Line_Contains, Ray_Contains, Seg_Contains. rewrite !DistanceSq_R, !sqd_dist. rsimpl.
  assert (G : forall (S : pt -> Prop) a, nearest S p a -> (Rleb (dist a p * dist a p) e = true <-> exists q, S q /\ dist q p * dist q p <= e)).
  { intros S a [Sa M]. rewrite Rleb_true. split; [intros H; now exists a|]. intros (q & Sq & H). specialize (M q Sq). pose proof (norm_pos (minus a p)). unfold dist in *. nra. }
  destruct (Line_ClosestPoint l p) as [a1 d1], (Ray_ClosestPoint r p) as [a2 d2], (Seg_ClosestPoint s p) as [a3 d3]. cbn [fst].
  repeat rewrite sqd_dist. repeat split; intros; eapply G; try eassumption; cbn in *; try tauto.
Qed.
Print Assumptions C75_contains.
Lemma near_line (l : line R) p e : unitv (ldir l) -> (Line_Contains l p e = true <-> exists q, on_line l q /\ dist q p * dist q p <= e).
Proof. intros U. apply (C75_contains l (Ry origin (V3 1 0 0)) w_seg p e U); [unfold unitv, dot; cbn; ring|unfold proper_seg, w_seg; cbn; intros E; injection E; lra]. Qed.
Lemma near_ray (r : ray R) p e : unitv (rdir r) -> (Ray_Contains r p e = true <-> exists q, on_ray r q /\ dist q p * dist q p <= e).
Proof. intros U. apply (C75_contains w_line r w_seg p e); [unfold unitv, dot; cbn; ring|exact U|unfold proper_seg, w_seg; cbn; intros E; injection E; lra]. Qed.
Lemma near_seg (s : segment R) p e : proper_seg s -> (Seg_Contains s p e = true <-> exists q, on_segment s q /\ dist q p * dist q p <= e).
Proof. intros U. apply (C75_contains w_line (Ry origin (V3 1 0 0)) s p e); [unfold unitv, dot; cbn; ring|unfold unitv, dot; cbn; ring|exact U]. Qed.
Definition convex_set (A : pt -> Prop) := forall x y k, A x -> A y -> 0 <= k <= 1 -> A (plus x (scale k (minus y x))).
Lemma convex_near (A : pt -> Prop) (s : segment R) e : convex_set A ->
  ((exists q, A q /\ dist q (seg_a s) * dist q (seg_a s) <= e) /\ (exists q, A q /\ dist q (seg_b s) * dist q (seg_b s) <= e) <->
   forall p, on_segment s p -> exists q, A q /\ dist q p * dist q p <= e).
Proof.
  intros C. split.
  - intros [(x & Ax & X) (y & Ay & Y)] p (k & Hk & ->). exists (plus x (scale k (minus y x))). split; [now apply C|].
    assert (E : sqd (plus x (scale k (minus y x))) (plus (seg_a s) (scale k (minus (seg_b s) (seg_a s)))) =
      (1 - k) * sqd x (seg_a s) + k * sqd y (seg_b s) - k * (1 - k) * dot (minus (minus x (seg_a s)) (minus y (seg_b s))) (minus (minus x (seg_a s)) (minus y (seg_b s)))) by (unfold sqd; gunf; ring).
    rewrite <- !sqd_dist in *. rewrite E. assert (D := dot_pos (minus (minus x (seg_a s)) (minus y (seg_b s)))). assert (0 <= k * (1 - k)) by nra. set (z := dot _ _) in *. set (u := sqd x _) in *. set (v := sqd y _) in *. nra.
  - intros H. split; apply H; [exists 0|exists 1]; (split; [lra|]); gunf; apply vec_ext; cbn [vx vy vz]; ring.
Qed.
Lemma convex_line l : convex_set (on_line l).
Proof. intros x y k (a & ->) (b & ->) Hk. exists (a + k * (b - a)). unfold along. gunf. apply vec_ext; cbn [vx vy vz]; ring. Qed.
Lemma convex_ray l : convex_set (on_ray l).
Proof. intros x y k (a & Ha & ->) (b & Hb & ->) Hk. exists (a + k * (b - a)). split; [nra|]. unfold along. gunf. apply vec_ext; cbn [vx vy vz]; ring. Qed.
Lemma convex_seg l : convex_set (on_segment l).
Proof. intros x y k (a & Ha & ->) (b & Hb & ->) Hk. exists (a + k * (b - a)). split; [nra|]. gunf. apply vec_ext; cbn [vx vy vz]; ring. Qed.
(** A segment is contained when each of its points is (the code tests its two ends). *)
Theorem C75_contains_segment (l : line R) (r : ray R) (s o : segment R) (e : R) : unitv (ldir l) -> unitv (rdir r) -> proper_seg s ->
  (Line_ContainsSeg l o e = true <-> forall p, on_segment o p -> exists q, on_line l q /\ dist q p * dist q p <= e) /\
  (Ray_ContainsSeg r o e = true <-> forall p, on_segment o p -> exists q, on_ray r q /\ dist q p * dist q p <= e) /\
  (Seg_ContainsSeg s o e = true <-> forall p, on_segment o p -> exists q, on_segment s q /\ dist q p * dist q p <= e).
Proof.
  intros U V W. unfold Line_ContainsSeg, Ray_ContainsSeg, Seg_ContainsSeg. rewrite !andb_true_iff.
  split; [rewrite !(near_line l) by exact U; apply convex_near, convex_line|].
  split; [rewrite !(near_ray r) by exact V; apply convex_near, convex_ray|rewrite !(near_seg s) by exact W; apply convex_near, convex_seg].
Qed.
Print Assumptions C75_contains_segment.
Example C75_contains_witness : let s := Seg (V3 0 1 0) (V3 4 1 0) in Seg_Contains s (V3 2 (3 / 2) 0 : pt) (1 / 4) = true /\ dist (V3 2 1 0) (V3 2 (3 / 2) 0) > 1 / 4.
Proof.
  cbn zeta. split.
  - apply near_seg; [unfold proper_seg; cbn; intros E; injection E; lra|]. exists (V3 2 1 0). split; [exists (1 / 2); split; [lra|]; unfold plus, scale, minus; cbn; apply vec_ext; cbn; field|].
    rewrite <- sqd_dist. unfold sqd. gunf. cbn. lra.
  - rewrite dist_sqrt. unfold sqd. gunf. cbn. replace ((2 - 2) * (2 - 2) + (1 - 3 / 2) * (1 - 3 / 2) + (0 - 0) * (0 - 0)) with (1 / 2 * (1 / 2)) by field. rewrite sqrt_square; lra.
Qed.
(** Line::Contains(Ray) rejects rays that lie on the line but point the other way. *)
Theorem C75_contains_ray_refuted : exists (l : line R) (r : ray R), unitv (ldir l) /\ unitv (rdir r) /\
  (forall p, on_ray r p -> on_line l p) /\ forall e, e <= 2 -> Line_ContainsRay l r e = false.
Proof.
  exists (Ln (V3 0 0 0) (V3 1 0 0)), (Ry (V3 0 0 0) (V3 (-1) 0 0)). split; [unfold unitv, dot; cbn; ring|]. split; [unfold unitv, dot; cbn; ring|]. split.
  - intros p (t & _ & ->). exists (- t). unfold along, plus, scale. cbn. apply vec_ext; cbn; ring.
  - intros e He. unfold Line_ContainsRay. apply andb_false_intro2. unfold vEquals. repeat rewrite Abs_R. cbn. rsimpl. apply andb_false_intro1, andb_false_intro1. apply Rltb_false.
    rewrite Rabs_right; lra.
Qed.
Print Assumptions C75_contains_ray_refuted.

Lemma vEquals_same (a : pt) e : 0 < e -> vEquals a a e = true.
Proof. intros H. unfold vEquals. repeat rewrite Abs_R. rsimpl. rewrite !Rminus_diag_eq by reflexivity. rewrite Rabs_R0. rewrite (proj2 (Rltb_true 0 e)) by exact H. reflexivity. Qed.
Lemma Rabs_split x : x <> 0 -> forall e, e <= Rabs x -> Rltb (Rabs x) e = false.
Proof. intros _ e H. now apply Rltb_false. Qed.
Lemma vEquals_apart (a b : pt) : a <> b -> exists e0, 0 < e0 /\ forall e, e <= e0 -> vEquals a b e = false.
Proof.
  intros N. unfold vEquals. destruct (Req_dec (vx a) (vx b)) as [X|X]; [destruct (Req_dec (vy a) (vy b)) as [Y|Y]; [destruct (Req_dec (vz a) (vz b)) as [Z|Z]; [exfalso; apply N; now apply vec_ext|]|]|].
  - exists (Rabs (vz a - vz b)). split; [apply Rabs_pos_lt; lra|]. intros e He. repeat rewrite Abs_R. rsimpl. apply andb_false_intro2. now apply Rltb_false.
  - exists (Rabs (vy a - vy b)). split; [apply Rabs_pos_lt; lra|]. intros e He. repeat rewrite Abs_R. rsimpl. apply andb_false_intro1, andb_false_intro2. now apply Rltb_false.
  - exists (Rabs (vx a - vx b)). split; [apply Rabs_pos_lt; lra|]. intros e He. repeat rewrite Abs_R. rsimpl. apply andb_false_intro1, andb_false_intro1. now apply Rltb_false.
Qed.
Lemma vEquals_lim (a b : pt) : (forall e, 0 < e -> vEquals a b e = true) <-> a = b.
Proof.
  split; [|intros ->; intros e H; now apply vEquals_same]. intros H. destruct (Req_dec (sqd a b) 0) as [Z|Z].
  - unfold sqd in Z. apply dot_zero in Z. injection Z as Z1 Z2 Z3. apply vec_ext; lra.
  - exfalso. assert (N : a <> b) by (intros ->; apply Z; unfold sqd; gunf; ring). destruct (vEquals_apart a b N) as (e0 & P & F). specialize (H e0 P). rewrite F in H; [discriminate H|lra].
Qed.
Lemma pt_dec (a b : pt) : a = b \/ a <> b.
Proof. destruct (Req_dec (sqd a b) 0) as [Z|Z]; [left|right; intros ->; apply Z; unfold sqd; gunf; ring]. unfold sqd in Z. apply dot_zero in Z. injection Z as Z1 Z2 Z3. apply vec_ext; lra. Qed.
(** Equality tests: accepted for every positive tolerance exactly when the two objects are the same (for a segment, in either
    order of its ends; for a line, the same point set). *)
Theorem C75_equals_ray_segment (r q : ray R) (s o : segment R) :
  ((forall e, 0 < e -> Ray_Equals r q e = true) <-> r = q) /\
  ((forall e, 0 < e -> Seg_Equals s o e = true) <-> o = s \/ o = Seg_Reverse s).
Proof.
  split.
  - unfold Ray_Equals. split.
    + intros H. assert (A : rpos r = rpos q) by (apply vEquals_lim; intros e P; specialize (H e P); now apply andb_true_iff in H).
      assert (B : rdir r = rdir q) by (apply vEquals_lim; intros e P; specialize (H e P); now apply andb_true_iff in H). destruct r, q; cbn in *; congruence.
    + intros -> e P. now rewrite !vEquals_same.
  - unfold Seg_Equals. split.
    + intros H. destruct s as [a b], o as [c d]. cbn in *. unfold Seg_Reverse. cbn.
      assert (G : forall u v x y : pt, (u = x /\ v = y) \/ exists e0, 0 < e0 /\ forall e, e <= e0 -> vEquals u x e && vEquals v y e = false).
      { intros u v x y. destruct (pt_dec u x) as [E|N]; [destruct (pt_dec v y) as [E'|N]; [now left|]|]; right; destruct (vEquals_apart _ _ N) as (e0 & P & F); exists e0; (split; [exact P|]); intros e L; rewrite (F e L); [apply andb_false_r|reflexivity]. }
      destruct (G a b c d) as [[-> ->]|(e1 & P1 & F1)]; [now left|]. destruct (G a b d c) as [[-> ->]|(e2 & P2 & F2)]; [now right|]. exfalso.
      assert (P : 0 < Rmin e1 e2) by (unfold Rmin; destruct (Rle_dec e1 e2); assumption). specialize (H _ P). rewrite F1 in H by apply Rmin_l. rewrite F2 in H by apply Rmin_r. discriminate H.
    + intros [->| ->] e P; cbn; rewrite !vEquals_same by exact P; [reflexivity|apply orb_true_r].
Qed.
Print Assumptions C75_equals_ray_segment.
Lemma unit_parallel (u v : pt) : unitv u -> unitv v -> Rabs (dot u v) = 1 -> v = scale (dot u v) u.
Proof.
  intros U V D. assert (Q : dot u v * dot u v = 1). { destruct (Rcase_abs (dot u v)) as [N|P]; [rewrite (Rabs_left _ N) in D; nra|rewrite (Rabs_right _ P) in D; nra]. }
  assert (Z : dot (minus v (scale (dot u v) u)) (minus v (scale (dot u v) u)) = 0).
  { rewrite dot_minus_l, !dot_minus_r, !dot_scale_l, !dot_scale_r, (dot_comm v u), U, V. lra. }
  apply dot_zero in Z. revert Z. generalize (dot u v). intros k Z. injection Z as Z1 Z2 Z3. apply vec_ext; cbn [vx vy vz scale]; lra.
Qed.
Theorem C75_equals_line (l o : line R) : unitv (ldir l) -> unitv (ldir o) ->
  ((forall e, 0 < e -> Line_Equals l o e = true) <-> forall p, on_line l p <-> on_line o p).
Proof.
  intros U V. unfold Line_Equals. change (@Dot R Num_R) with dot. split.
  - intros H. assert (A : on_line l (lpos o)).
    { pose (q := fst (Line_ClosestPoint l (lpos o))). assert (Q : on_line l q) by (unfold q; rewrite Line_ClosestPoint_R; cbn; eexists; reflexivity).
      assert (Z : sqd q (lpos o) = 0).
      { apply Rle_antisym; [|unfold sqd; apply dot_pos]. apply Rnot_lt_le. intros P. specialize (H (sqd q (lpos o) / 2) ltac:(lra)). apply andb_true_iff in H as [H _].
        unfold Line_Contains in H. fold q in H. rewrite DistanceSq_R in H. rsimpl. apply Rleb_true in H. lra. }
      unfold sqd in Z. apply dot_zero in Z. clearbody q. replace (lpos o) with q; [exact Q|]. injection Z as Z1 Z2 Z3. apply vec_ext; lra. }
    assert (B : Rabs (dot (ldir l) (ldir o)) = 1).
    { destruct (Req_dec (Rabs (dot (ldir l) (ldir o))) 1) as [E|E]; [exact E|]. exfalso. specialize (H (Rabs (Rabs (dot (ldir l) (ldir o)) - 1))).
      assert (P : 0 < Rabs (Rabs (dot (ldir l) (ldir o)) - 1)) by (apply Rabs_pos_lt; lra). apply H in P. apply andb_true_iff in P as [_ P]. unfold EqualAbs in P. repeat rewrite Abs_R in P. rsimpl. apply Rltb_true in P. lra. }
    assert (E := unit_parallel _ _ U V B). assert (E' : ldir l = scale (dot (ldir l) (ldir o)) (ldir o)) by (rewrite (dot_comm (ldir l)); apply unit_parallel; [exact V|exact U|now rewrite dot_comm]).
    set (c := dot (ldir l) (ldir o)) in *. destruct A as (t0 & A). intros p. split.
    + intros (t & ->). exists ((t - t0) * c). rewrite A. unfold along. rewrite E' at 1 2. gunf. apply vec_ext; cbn [vx vy vz]; ring.
    + intros (t & ->). exists (t0 + t * c). rewrite A. unfold along. rewrite E at 1. gunf. apply vec_ext; cbn [vx vy vz]; ring.
  - intros H e P. apply andb_true_iff. split.
    + apply near_line; [exact U|]. exists (lpos o). split; [apply H; exists 0; now rewrite along_0|]. rewrite <- sqd_dist. unfold sqd. replace (dot _ _) with 0 by (gunf; ring). lra.
    + assert (S1 : on_line l (lpos o)) by (apply H; exists 0; now rewrite along_0). assert (S2 : on_line l (along (lpos o) (ldir o) 1)) by (apply H; now exists 1).
      destruct S1 as (a & S1), S2 as (b & S2). assert (E : ldir o = scale (b - a) (ldir l)).
      { transitivity (minus (along (lpos o) (ldir o) 1) (lpos o)); [unfold along; gunf; apply vec_ext; cbn [vx vy vz]; ring|]. rewrite S2, S1. unfold along. gunf. apply vec_ext; cbn [vx vy vz]; ring. }
      unfold EqualAbs. repeat rewrite Abs_R. rsimpl. apply Rltb_true. replace (Rabs (dot (ldir l) (ldir o))) with 1; [rewrite Rminus_diag_eq, Rabs_R0 by reflexivity; exact P|].
      unfold unitv in U, V. rewrite E, dot_scale_l, dot_scale_r, U in V. rewrite E, dot_scale_r, U, Rmult_1_r. set (k := b - a) in *.
      destruct (Rcase_abs k) as [K|K]; [rewrite (Rabs_left _ K)|rewrite (Rabs_right _ K)]; nra.
Qed.
Print Assumptions C75_equals_line.
Example C75_equals_witness : forall p, on_line (Ln (V3 1 0 0) (V3 0 0 1)) p <-> on_line (Ln (V3 1 0 5) (V3 0 0 (-1))) p.
Proof. intros p. split; intros (t & ->); [exists (5 - t)|exists (5 - t)]; unfold along, plus, scale; cbn; apply vec_ext; cbn; ring. Qed.
Print Assumptions C43_line_line. Print Assumptions C43_line_ray. Print Assumptions C43_line_segment. Print Assumptions C43_ray_line.
Print Assumptions C43_ray_ray. Print Assumptions C43_ray_segment. Print Assumptions C43_segment_line. Print Assumptions C43_segment_ray.
Print Assumptions C43_segment_segment. Print Assumptions C43_point. Print Assumptions C43_distances_line. Print Assumptions C43_distances_ray. Print Assumptions C43_distances_segment.
