(** C102, continued: the 2D segment against segment test; C103: 2D triangles. *)
From Coq Require Import Reals Lra Psatz Bool List.
From Verif Require Import Num NumR ScalarModel ScalarProofs Vec3Model Vec2Model GeoTypes MatModel AabbModel LineModel RotModel PlaneModel TriangleModel GeoSpec AabbSpec LineSpec TriangleSpec
  GeoLemmas LineProofs LineProps TriangleProps Vec2Spec Vec2Props Flat2Model Flat2Spec Flat2Props.
Import ListNotations.
Open Scope R_scope.

(** The segment from p along dir. *)
Definition ray_seg (p dir : p2) : seg2 R := Seg2 p (pl p dir).
Lemma on_ray_seg p dir q : on_seg2 (ray_seg p dir) q <-> exists t, 0 <= t <= 1 /\ q = pl p (sc t dir).
Proof. unfold on_seg2, ray_seg. cbn [s2a s2b]. split; intros (t & T & ->); exists t; (split; [exact T|]); apply v2_ext; unfold pl, sc, mi; cbn; ring. Qed.
(** Directions at an angle the function takes for one (sine above 1e-4): the answer and the two positions are exact. *)
Theorem C102_crossing (p0 d0 p1 d1 : p2) : nrm d0 * nrm d1 / 10000 < Rabs (area2 d0 d1) ->
  match LineSegment2DLineSegment2DIntersect p0 d0 p1 d1 with
  | (hit, Some (s, t)) => pl p0 (sc s d0) = pl p1 (sc t d1) /\
    (hit = true <-> exists q, on_seg2 (ray_seg p0 d0) q /\ on_seg2 (ray_seg p1 d1) q) /\
    (forall q, on_seg2 (ray_seg p0 d0) q -> on_seg2 (ray_seg p1 d1) q -> q = pl p0 (sc s d0))
  | _ => False
  end.
Proof.
  intros X. unfold LineSegment2DLineSegment2DIntersect. change (PerpDot2 d0 d1) with (area2 d0 d1). rewrite !LengthSq2_R. rsimpl.
  set (c := area2 d0 d1) in *.
  assert (N0 : nrm d0 * nrm d0 = dt d0 d0) by (apply sqrt_sqrt; unfold dt; nra). assert (N1 : nrm d1 * nrm d1 = dt d1 d1) by (apply sqrt_sqrt; unfold dt; nra).
  assert (P0 : 0 <= nrm d0) by apply sqrt_pos. assert (P1 : 0 <= nrm d1) by apply sqrt_pos. assert (P : 0 <= nrm d0 * nrm d1) by now apply Rmult_le_pos.
  assert (G : 1 / 100000000 * dt d0 d0 * dt d1 d1 < c * c).
  { rewrite <- N0, <- N1. apply Rlt_le_trans with (Rabs c * Rabs c); [|right; rewrite <- Rabs_mult; apply Rabs_right; apply Rle_ge, Rle_0_sqr].
    apply Rle_lt_trans with ((nrm d0 * nrm d1 / 10000) * (nrm d0 * nrm d1 / 10000)); [right; field|]. apply Rmult_le_0_lt_compat; lra. }
  destruct (Rltb_spec (1 / 100000000 * dt d0 d0 * dt d1 d1) (c * c)) as [_|L]; [|lra].
  assert (C : c <> 0) by (intros E; rewrite E in X; rewrite Rabs_R0 in X; lra).
  change (PerpDot2 (sub2 p1 p0) d1) with (area2 (mi p1 p0) d1). change (PerpDot2 (sub2 p1 p0) d0) with (area2 (mi p1 p0) d0).
  set (s := area2 (mi p1 p0) d1 / c). set (t := area2 (mi p1 p0) d0 / c).
  assert (M : pl p0 (sc s d0) = pl p1 (sc t d1)).
  { unfold c, area2 in C. apply v2_ext; unfold s, t, c, area2, pl, sc, mi; cbn [x2 y2]; field; exact C. }
  assert (U : forall s' t', pl p0 (sc s' d0) = pl p1 (sc t' d1) -> s' = s /\ t' = t).
  { intros s' t' E. assert (E1 : s' * x2 d0 - t' * x2 d1 = x2 p1 - x2 p0) by (apply (f_equal x2) in E; unfold pl, sc in E; cbn in E; lra).
    assert (E2 : s' * y2 d0 - t' * y2 d1 = y2 p1 - y2 p0) by (apply (f_equal y2) in E; unfold pl, sc in E; cbn in E; lra).
    unfold s, t, area2, mi. cbn [x2 y2]. rewrite <- E1, <- E2. unfold c, area2 in C |- *. split; field; exact C. }
  split; [exact M|]. split.
  - rewrite !andb_true_iff, !Rleb_true. split.
    + intros [[[A B] D] E]. exists (pl p0 (sc s d0)). rewrite !on_ray_seg. split; [exists s; auto|exists t; auto].
    + intros (q & Q & Q'). rewrite on_ray_seg in Q; destruct Q as (s' & S & ->). rewrite on_ray_seg in Q'; destruct Q' as (t' & T & E). destruct (U _ _ E) as [-> ->]. lra.
  - intros q Q Q'. rewrite on_ray_seg in Q; destruct Q as (s' & S & ->). rewrite on_ray_seg in Q'; destruct Q' as (t' & T & E). now destruct (U _ _ E) as [-> _].
Qed.
Print Assumptions C102_crossing.
(** Segments along one line: the answer is whether they touch, and the two numbers are the ends of the common part. *)
Theorem C102_same_line (p0 d0 p1 d1 : p2) : d0 <> o2 -> area2 d0 d1 = 0 -> area2 (mi p1 p0) d0 = 0 ->
  match LineSegment2DLineSegment2DIntersect p0 d0 p1 d1 with
  | (true, Some (lo, hi)) => lo <= hi /\ forall q, on_seg2 (ray_seg p0 d0) q /\ on_seg2 (ray_seg p1 d1) q <-> exists k, lo <= k <= hi /\ q = pl p0 (sc k d0)
  | (false, None) => ~ exists q, on_seg2 (ray_seg p0 d0) q /\ on_seg2 (ray_seg p1 d1) q
  | _ => False
  end.
Proof.
  intros N C D. unfold LineSegment2DLineSegment2DIntersect. change (PerpDot2 d0 d1) with (area2 d0 d1). change (PerpDot2 (sub2 p1 p0) d0) with (area2 (mi p1 p0) d0). rewrite C, D, !LengthSq2_R. rsimpl.
  assert (P0 : 0 < dt d0 d0). { unfold dt. destruct d0 as [a b]. cbn. assert (a <> 0 \/ b <> 0). { destruct (Req_dec a 0) as [->|]; [right; intros ->; now apply N|now left]. } destruct H; nra. }
  assert (Q : forall v, 0 <= dt v v) by (intros v; unfold dt; nra). assert (Q1 := Q d1). assert (QE := Q (sub2 p1 p0)).
  assert (G1 : 0 <= 1 / 100000000 * dt d0 d0 * dt d1 d1) by (repeat apply Rmult_le_pos; lra). assert (G2 : 0 <= 1 / 100000000 * dt d0 d0 * dt (sub2 p1 p0) (sub2 p1 p0)) by (repeat apply Rmult_le_pos; lra).
  destruct (Rltb_spec (1 / 100000000 * dt d0 d0 * dt d1 d1) (0 * 0)); [lra|]. destruct (Rltb_spec (1 / 100000000 * dt d0 d0 * dt (sub2 p1 p0) (sub2 p1 p0)) (0 * 0)); [lra|].
  change (Dot2 d0 (sub2 p1 p0)) with (dt d0 (mi p1 p0)). change (Dot2 d0 d1) with (dt d0 d1).
  set (s0 := dt d0 (mi p1 p0) / dt d0 d0). set (dd := dt d0 d1 / dt d0 d0). rewrite Min_R, Max_R.
  assert (ONP : forall v, area2 d0 v = 0 -> v = sc (dt d0 v / dt d0 d0) d0).
  { intros v Z. apply v2_ext; unfold sc; cbn [x2 y2]; apply Rmult_eq_reg_r with (dt d0 d0); try lra;
      [replace (dt d0 v / dt d0 d0 * x2 d0 * dt d0 d0) with (dt d0 v * x2 d0) by (field; lra)|replace (dt d0 v / dt d0 d0 * y2 d0 * dt d0 d0) with (dt d0 v * y2 d0) by (field; lra)];
      assert (K1 : x2 d0 * area2 d0 v = 0) by (rewrite Z; ring); assert (K2 : y2 d0 * area2 d0 v = 0) by (rewrite Z; ring); unfold dt; unfold area2 in K1, K2; lra. }
  assert (E1 : mi p1 p0 = sc s0 d0) by (apply ONP; unfold area2 in *; lra). assert (E2 : d1 = sc dd d0) by now apply ONP.
  assert (INJ : forall k k', pl p0 (sc k d0) = pl p0 (sc k' d0) -> k = k').
  { intros k k' E. assert (X : (k - k') * x2 d0 = 0) by (apply (f_equal x2) in E; unfold pl, sc in E; cbn in E; lra). assert (Y : (k - k') * y2 d0 = 0) by (apply (f_equal y2) in E; unfold pl, sc in E; cbn in E; lra).
    assert (Z : (k - k') * dt d0 d0 = 0) by (unfold dt; transitivity ((k - k') * x2 d0 * x2 d0 + (k - k') * y2 d0 * y2 d0); [ring|rewrite X, Y; ring]). apply Rmult_integral in Z. lra. }
  assert (ON1 : forall t, pl p1 (sc t d1) = pl p0 (sc (s0 + t * dd) d0)).
  { intros t. rewrite E2. apply v2_ext; [apply (f_equal x2) in E1|apply (f_equal y2) in E1]; unfold pl, sc, mi in *; cbn [x2 y2] in *; lra. }
  assert (ALL : forall q, on_seg2 (ray_seg p0 d0) q /\ on_seg2 (ray_seg p1 d1) q <-> exists k, (0 <= k <= 1 /\ Rmin s0 (s0 + dd) <= k <= Rmax s0 (s0 + dd)) /\ q = pl p0 (sc k d0)).
  { intros q. rewrite !on_ray_seg. split.
    - intros [(k & K & ->) (t & T & E)]. exists k. rewrite ON1 in E. apply INJ in E. split; [split; [exact K|]|reflexivity]. unfold Rmin, Rmax. destruct (Rle_dec s0 (s0 + dd)); nra.
    - intros (k & (K & L) & ->). split; [exists k; auto|]. destruct (Req_dec dd 0) as [Z|Z].
      + exists 0. split; [lra|]. rewrite ON1. f_equal. f_equal. rewrite Z in *. unfold Rmin, Rmax in L. destruct (Rle_dec s0 (s0 + 0)); lra.
      + exists ((k - s0) / dd). split; [|rewrite ON1; f_equal; f_equal; field; exact Z]. unfold Rmin, Rmax in L. destruct (Rle_dec s0 (s0 + dd)) as [A|A].
        * split; [apply Rmult_le_pos; [lra|left; apply Rinv_0_lt_compat; lra]|]. apply Rmult_le_reg_r with dd; [lra|]. unfold Rdiv. rewrite Rmult_assoc, Rinv_l by exact Z. lra.
        * replace ((k - s0) / dd) with ((s0 - k) / (- dd)) by (field; exact Z). split; [apply Rmult_le_pos; [lra|left; apply Rinv_0_lt_compat; lra]|]. apply Rmult_le_reg_r with (- dd); [lra|]. unfold Rdiv. rewrite Rmult_assoc, Rinv_l by lra. lra. }
  assert (RG := proj2 (C102_ranges 0 1 (Rmin s0 (s0 + dd)) (Rmax s0 (s0 + dd)) ltac:(lra) ltac:(unfold Rmin, Rmax; destruct (Rle_dec s0 (s0 + dd)); lra))).
  destruct (IntervalIntersection 0 1 _ _) as [n st]. destruct n as [|n].
  - destruct RG as [-> RG]. intros (q & HQ). apply ALL in HQ as (k & K & _). apply RG. now exists k.
  - destruct st as [[lo hi]|]; [|contradiction]. destruct RG as [RG RN]. cbn. split; [destruct RN as [[_ RN]|[_ RN]]; lra|]. intros q. rewrite ALL. split; intros (k & K & ->); exists k; (split; [now apply RG|reflexivity]).
Qed.
Print Assumptions C102_same_line.
(** The tolerance is on the angle of e = p1 - p0 alone: parallel segments 0.05 apart are reported to intersect. *)
Theorem C102_near_refuted : exists p0 d0 p1 d1 : p2, d0 <> o2 /\ d1 <> o2 /\ fst (LineSegment2DLineSegment2DIntersect p0 d0 p1 d1) = true /\
  forall q q', on_seg2 (ray_seg p0 d0) q -> on_seg2 (ray_seg p1 d1) q' -> 1 / 20 <= dst q q'.
Proof.
  exists (V2 0 0), (V2 1000 0), (V2 999 (1 / 20)), (V2 1 0). split; [intros E; injection E; lra|]. split; [intros E; injection E; lra|]. split.
  - unfold LineSegment2DLineSegment2DIntersect, IntervalIntersection, PerpDot2, LengthSq2, Dot2, sub2. rewrite Min_R, Max_R. cbn [x2 y2]. rsimpl.
    match goal with |- context [Rltb ?a ?b] => destruct (Rltb_spec a b); [lra|] end. match goal with |- context [Rltb ?a ?b] => destruct (Rltb_spec a b); [lra|] end.
    set (s0 := (1000 * (999 - 0) + 0 * (1 / 20 - 0)) / (1000 * 1000 + 0 * 0)). set (s1 := s0 + (1000 * 1 + 0 * 0) / (1000 * 1000 + 0 * 0)).
    assert (E0 : s0 = 999 / 1000) by (unfold s0; field). assert (E1 : s1 = 1) by (unfold s1; rewrite E0; field). rewrite E0, E1, Rmin_left, Rmax_right by lra.
    rewrite (proj2 (Rltb_false 1 (999 / 1000))), (proj2 (Rltb_false 1 0)), (proj2 (Rltb_true (999 / 1000) 1)), (proj2 (Rltb_true 0 1)) by lra. reflexivity.
  - intros q q' Q Q'. rewrite on_ray_seg in Q; destruct Q as (t & T & ->). rewrite on_ray_seg in Q'; destruct Q' as (t' & T' & ->). unfold dst, nrm. apply Rle_trans with (sqrt (1 / 20 * (1 / 20))); [rewrite sqrt_square; lra|]. apply sqrt_le_1_alt.
    unfold dt, mi, pl, sc. cbn [x2 y2]. match goal with |- _ <= ?a * ?a + ?b * ?b => assert (0 <= a * a) by apply Rle_0_sqr; replace b with (- (1 / 20)) by field end. lra.
Qed.
Print Assumptions C102_near_refuted.
Example C102_crossing_witness : nrm (V2 1 0) * nrm (V2 0 1) / 10000 < Rabs (area2 (V2 1 0) (V2 0 1)).
Proof. unfold nrm, dt, area2. cbn. replace (1 * 1 + 0 * 0) with 1 by ring. replace (0 * 0 + 1 * 1) with 1 by ring. rewrite sqrt_1. replace (1 * 1 - 0 * 0) with 1 by ring. rewrite Rabs_R1. lra. Qed.
Example C102_same_line_witness : V2 1 0 <> o2 /\ area2 (V2 1 0) (V2 2 0) = 0 /\ area2 (mi (V2 3 0) (V2 0 0)) (V2 1 0) = 0.
Proof. split; [intros E; injection E; lra|]. unfold area2, mi. cbn. split; ring. Qed.
