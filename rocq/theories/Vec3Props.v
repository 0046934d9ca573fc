(** Properties C26-C29 of float3, over the reals. *)
From Coq Require Import Reals Lra Psatz ZArith Nsatz.
From Verif Require Import Num NumR ScalarModel ScalarProofs Vec3Model GeoSpec GeoLemmas.
Open Scope R_scope.

Definition eps6 : R := 1 / 1000000.

Lemma Normalize_R (v : pt) : Normalize v = if Rltb eps6 (norm v) then (scale (/ norm v) v, norm v) else (V3 1 0 0, 0).
Proof.
  unfold Normalize. change (Length v) with (norm v). cbv zeta. rsimpl. fold eps6. destruct (Rltb eps6 (norm v)); [|reflexivity].
  f_equal. apply vec_ext; cbn; rsimpl; unfold Rdiv; ring.
Qed.
Lemma norm_unit v : unitv v <-> norm v = 1.
Proof.
  unfold unitv. rewrite <- norm_sq. pose proof (norm_pos v). split; intros; nra.
Qed.
Lemma normalized_unit v : 0 < norm v -> norm (scale (/ norm v) v) = 1.
Proof.
  intros H. rewrite norm_scale, Rabs_pos_eq by (apply Rlt_le, Rinv_0_lt_compat; lra). field. lra.
Qed.

(** ** C26 *)
Theorem C26_normalize : forall v : pt,
  let (w, l) := Normalize v in
  unitv w /\ (l = 0 <-> norm v <= 1 / 1000000) /\ (l <> 0 -> l = norm v /\ v = scale l w).
Proof.
  intros v. rewrite Normalize_R. fold eps6. assert (E6 : 0 < eps6) by (unfold eps6; lra). destruct (Rltb_spec eps6 (norm v)) as [H|H].
  - split; [apply norm_unit, normalized_unit; lra|]. split; [split; lra|]. intros _. split; [reflexivity|].
    apply vec_ext; cbn; field; lra.
  - split; [unfold unitv, dot; cbn; ring|]. split; [split; lra|]. intros []. reflexivity.
Qed.
Print Assumptions C26_normalize.
Example C26_normalize_witness : norm (V3 3 0 4) = 5 /\ snd (Normalize (V3 3 0 4)) <> 0.
Proof.
  assert (N : norm (V3 3 0 4) = 5) by (unfold norm, dot; cbn; replace (3*3+0*0+4*4) with (5*5) by ring; apply sqrt_square; lra).
  split; [exact N|]. rewrite Normalize_R, N. destruct (Rltb_spec eps6 5); cbn; unfold eps6 in *; lra.
Qed.
Theorem C26_scale_to_length : forall (v : pt) (len : R),
  let (w, l) := ScaleToLength v len in
  norm w = Rabs len /\ (l <> 0 -> l = norm v /\ scale l w = scale len v) /\ (norm v >= 1 / 1000 -> l <> 0).
Proof.
  intros v len. unfold ScaleToLength. change (LengthSq v) with (dot v v). cbv zeta. rsimpl. destruct (Rltb_spec (dot v v) (1 / 1000000)) as [H|H].
  - split; [|split; [contradiction|]].
    + unfold norm, dot; cbn. replace (len * len + 0 * 0 + 0 * 0) with (Rsqr len) by (unfold Rsqr; ring). apply sqrt_Rsqr_abs.
    + intros N. pose proof (norm_sq v). nra.
  - change (sqrt (dot v v)) with (norm v). assert (N : 0 < norm v) by (apply sqrt_lt_R0; lra).
    replace (V3 (vx v * (len / norm v)) (vy v * (len / norm v)) (vz v * (len / norm v))) with (scale (len / norm v) v) by (apply vec_ext; cbn; ring).
    split; [|split; [intros _; split; [reflexivity|]|lra]].
    + rewrite norm_scale. unfold Rdiv. rewrite Rabs_mult, Rabs_inv, (Rabs_pos_eq (norm v)) by lra. field. lra.
    + apply vec_ext; cbn; field; lra.
Qed.
Print Assumptions C26_scale_to_length.
Theorem C26_clamp_length : forall (v : pt) (m : R), 0 <= m ->
  norm (ClampLength v m) = Rmin (norm v) m /\ (exists k, 0 <= k <= 1 /\ ClampLength v m = scale k v) /\
  (norm v <= m -> ClampLength v m = v).
Proof.
  intros v m Hm. unfold ClampLength. change (LengthSq v) with (dot v v). cbv zeta. rsimpl. change (sqrt (dot v v)) with (norm v).
  pose proof (norm_sq v) as S. pose proof (norm_pos v). destruct (Rltb_spec (m * m) (dot v v)) as [L|L].
  - assert (m < norm v) by nra. rewrite vmuls_R. split; [|split].
    + rewrite norm_scale. unfold Rdiv. rewrite Rabs_mult, Rabs_inv, !Rabs_pos_eq by lra. rewrite Rmin_right by lra. field. lra.
    + exists (m / norm v). split; [|reflexivity]. assert (0 < / norm v) by (apply Rinv_0_lt_compat; lra).
      assert (norm v * / norm v = 1) by (field; lra). unfold Rdiv. split; nra.
    + lra.
  - assert (norm v <= m) by nra. split; [now rewrite Rmin_left|]. split; [exists 1; split; [lra|apply vec_ext; cbn; ring]|reflexivity].
Qed.
Print Assumptions C26_clamp_length.
Theorem C26_clamp_length2 : forall (v : pt) (lo hi : R), 0 <= lo <= hi -> v <> origin ->
  norm (ClampLength2 v lo hi) = Rmax lo (Rmin (norm v) hi) /\ exists k, 0 <= k /\ ClampLength2 v lo hi = scale k v.
Proof.
  intros v lo hi Hm Hv. unfold ClampLength2. change (LengthSq v) with (dot v v). cbv zeta. rsimpl. change (sqrt (dot v v)) with (norm v).
  pose proof (norm_sq v) as S. assert (P : 0 < norm v).
  { destruct (norm_pos v) as [|E]; [assumption|]. symmetry in E. apply norm_zero in E. contradiction. }
  assert (0 < / norm v) by (apply Rinv_0_lt_compat; lra).
  destruct (Rltb_spec (hi * hi) (dot v v)) as [L|L]; [|destruct (Rltb_spec (dot v v) (lo * lo)) as [L2|L2]].
  - assert (hi < norm v) by nra. rewrite vmuls_R. split; [|exists (hi / norm v); split; [unfold Rdiv; nra|reflexivity]].
    rewrite norm_scale. unfold Rdiv. rewrite Rabs_mult, Rabs_inv, !Rabs_pos_eq by lra. rewrite Rmin_right, Rmax_right by lra. field. lra.
  - assert (norm v < lo) by nra. rewrite vmuls_R. split; [|exists (lo / norm v); split; [unfold Rdiv; nra|reflexivity]].
    rewrite norm_scale. unfold Rdiv. rewrite Rabs_mult, Rabs_inv, !Rabs_pos_eq by lra. rewrite Rmin_left, Rmax_left by lra. field. lra.
  - assert (norm v <= hi) by nra. assert (lo <= norm v) by nra. rewrite Rmin_left, Rmax_right by lra.
    split; [reflexivity|]. exists 1. split; [lra|apply vec_ext; cbn; ring].
Qed.
Print Assumptions C26_clamp_length2.
Example C26_clamp_length2_witness : (0 <= 1 <= 2)%R /\ V3 3 0 4 <> origin.
Proof. split; [lra|]. unfold origin. intros E. injection E. lra. Qed.
Theorem C26_distance_metric : forall a b c : pt,
  0 <= Distance a b /\ (Distance a b = 0 <-> a = b) /\ Distance a b = Distance b a /\ Distance a c <= Distance a b + Distance b c /\
  Distance a b * Distance a b = DistanceSq a b.
Proof.
  intros. rewrite !Distance_R, DistanceSq_R. split; [apply norm_pos|]. split; [apply dist_zero|]. split; [apply dist_sym|].
  split; [apply dist_triangle|apply norm_sq].
Qed.
Print Assumptions C26_distance_metric.
Theorem C26_dot_cross : forall a b c : pt,
  orth a (Cross a b) /\ orth b (Cross a b) /\ norm (Cross a b) * norm (Cross a b) = dot a a * dot b b - dot a b * dot a b /\
  Rabs (Dot a b) <= Length a * Length b /\ Cross a b = scale (-1) (Cross b a) /\ volume a b (Cross a b) = norm (Cross a b) * norm (Cross a b) /\
  ScalarTripleProduct a b c = volume a b c /\
  Cross a (Cross b c) = minus (scale (Dot a c) b) (scale (Dot a b) c) /\
  (AreCollinear a b c 0 = true <-> Cross (minus b a) (minus c a) = origin).
Proof.
  intros a b c. rewrite norm_sq. split; [|split; [|split; [|split; [apply cauchy|split; [|split; [|split; [|split]]]]]]].
  - vunf; gunf; ring.
  - vunf; gunf; ring.
  - vunf; gunf; ring.
  - apply vec_ext; vunf; gunf; ring.
  - vunf; gunf; ring.
  - unfold ScalarTripleProduct. vunf; gunf; ring.
  - apply vec_ext; vunf; gunf; ring.
  - unfold AreCollinear. rewrite LengthSq_R. change (vsub b a) with (minus b a). change (vsub c a) with (minus c a). rsimpl. rewrite Rleb_true. split.
    + intros L. apply dot_zero. apply Rle_antisym; [exact L|apply dot_pos].
    + intros ->. gunf. lra.
Qed.
Print Assumptions C26_dot_cross.

(** ** C27 *)
Theorem C27_perpendicular : forall v hint hint2 : pt,
  (1 / 1000000 < norm (Cross v hint) ->
     unitv (Perpendicular v hint hint2) /\ orth v (Perpendicular v hint hint2) /\ orth hint (Perpendicular v hint hint2)) /\
  (norm (Cross v hint) <= 1 / 1000000 -> Perpendicular v hint hint2 = hint2).
Proof.
  intros v h h2. unfold Perpendicular. rewrite Normalize_R. fold eps6. assert (E6 : 0 < eps6) by (unfold eps6; lra).
  destruct (Rltb_spec eps6 (norm (Cross v h))) as [L|L]; split; intros L'; try lra; rsimpl.
  - destruct (Reqb_spec (norm (Cross v h)) 0); [lra|]. split; [apply norm_unit, normalized_unit; lra|].
    destruct (C26_dot_cross v h h) as (O1 & O2 & _). unfold orth in *. rewrite !dot_scale_r, O1, O2. lra.
  - destruct (Reqb_spec 0 0); congruence.
Qed.
Print Assumptions C27_perpendicular.
(** With the default hints (0,1,0) and (0,0,1) the result is a unit vector for every input, orthogonal up to 1e-6. *)
Theorem C27_perpendicular_default : forall v : pt,
  unitv (Perpendicular v unitY unitZ) /\ Rabs (dot v (Perpendicular v unitY unitZ)) <= 1 / 1000000.
Proof.
  intros v. destruct (C27_perpendicular v unitY unitZ) as [A B].
  destruct (Rlt_le_dec (1 / 1000000) (norm (Cross v unitY))) as [L|L].
  - destruct (A L) as (U & O & _). split; [exact U|]. rewrite O, Rabs_R0. lra.
  - rewrite (B L). split; [vunf; gunf; ring|]. apply norm_sq_le in L; [|lra]. apply Rabs_le. vunf; gunf. nra.
Qed.
Print Assumptions C27_perpendicular_default.
Theorem C27_another_perpendicular : forall v hint hint2 : pt, unitv v -> 1 / 1000000 < norm (Cross v hint) ->
  let p := Perpendicular v hint hint2 in let q := AnotherPerpendicular v hint hint2 in
  unitv q /\ orth v q /\ orth p q /\ volume v p q = 1.
Proof.
  intros v h h2 Hv L p q. destruct (C27_perpendicular v h h2) as [A _]. destruct (A L) as (Up & Op & _). fold p in Up, Op. clear A.
  destruct (C26_dot_cross v p p) as (O1 & O2 & O3 & _ & _ & V & _).
  unfold unitv, orth in *. rewrite Hv, Up, Op in O3.
  assert (N : norm (Cross v p) = 1) by (pose proof (norm_pos (Cross v p)); nra).
  assert (Q : q = Cross v p).
  { unfold q, AnotherPerpendicular, Normalized. fold p. rewrite Normalize_R, N. destruct (Rltb_spec eps6 1); [|unfold eps6 in *; lra].
    apply vec_ext; cbn; field. }
  rewrite Q, O1, O2, V, O3. split; [rewrite <- norm_sq, N; ring|]. lra.
Qed.
Print Assumptions C27_another_perpendicular.
Example C27_another_witness : unitv (V3 (3/5) 0 (4/5)) /\ 1 / 1000000 < norm (Cross (V3 (3/5) 0 (4/5)) unitY).
Proof.
  split; [gunf; field|]. unfold norm. replace (dot _ _) with (1 * 1) by (vunf; gunf; field). rewrite sqrt_square; lra.
Qed.
Theorem C27_perpendicular_basis : forall v : pt, unitv v ->
  let (b, c) := PerpendicularBasis v in
  unitv b /\ unitv c /\ orth v b /\ orth v c /\ orth b c /\ volume b c v = 1.
Proof.
  intros [x y z] U. unfold PerpendicularBasis. cbv zeta. rsimpl. gunf.
  destruct (Rleb_spec 0 z).
  - assert (W : / (1 + z) * (1 + z) = 1) by (field; lra). unfold Rdiv. set (w := / (1 + z)) in *. clearbody w. clear H. repeat split; nsatz.
  - assert (W : / (-1 + z) * (-1 + z) = 1) by (field; lra). unfold Rdiv. replace (- (1)) with (-1) by ring. set (w := / (-1 + z)) in *. clearbody w. clear H. repeat split; nsatz.
Qed.
Print Assumptions C27_perpendicular_basis.
(** The doc only asks for a non-zero vector; for one that is not of unit length the result is not orthogonal. *)
Theorem C27_perpendicular_basis_unnormalized_refuted :
  exists v : pt, v <> origin /\ dot v (fst (PerpendicularBasis v)) <> 0.
Proof.
  exists (V3 2 0 0). split; [intros E; injection E; lra|]. unfold PerpendicularBasis. rsimpl. gunf. cbn. destruct (Rleb_spec 0 0); lra.
Qed.
Print Assumptions C27_perpendicular_basis_unnormalized_refuted.

(** ** C28 *)
Lemma Reflect_R (v n : pt) : Reflect v n = minus (scale (2 * dot v n) n) v.
Proof. apply vec_ext; unfold Reflect; vunf; gunf; ring. Qed.
Theorem C28_reflect : forall v n : pt, unitv n ->
  norm (Reflect v n) = norm v /\ dot (Reflect v n) n = dot v n /\
  minus (Reflect v n) (scale (dot v n) n) = scale (-1) (minus v (scale (dot v n) n)) /\ Reflect (Reflect v n) n = v.
Proof.
  intros v n U. assert (R1 : Reflect v n = minus (scale (2 * dot v n) n) v).
  { apply Reflect_R. }
  assert (D : dot (Reflect v n) n = dot v n).
  { rewrite R1, dot_minus_l, dot_scale_l. unfold unitv in U. rewrite U. ring. }
  split; [|split; [exact D|split]].
  - unfold norm. f_equal. rewrite R1, dot_minus_l, !dot_minus_r, !dot_scale_l, !dot_scale_r, (dot_comm n v). unfold unitv in U. rewrite U. ring.
  - rewrite R1. apply vec_ext; gunf; ring.
  - assert (R2 : Reflect (Reflect v n) n = minus (scale (2 * dot (Reflect v n) n) n) (Reflect v n)) by apply Reflect_R.
    rewrite R2, D, R1. apply vec_ext; gunf; ring.
Qed.
Print Assumptions C28_reflect.
Theorem C28_project : forall v d : pt, d <> origin ->
  (exists k, ProjectTo v d = scale k d) /\ orth (minus v (ProjectTo v d)) d /\
  (forall k, norm (minus v (ProjectTo v d)) <= norm (minus v (scale k d))).
Proof.
  intros v d Hd. assert (P : dot d d <> 0) by (intros E; apply Hd, dot_zero, E).
  assert (E : ProjectTo v d = scale (dot v d / dot d d) d).
  { unfold ProjectTo. rewrite Dot_R, LengthSq_R. unfold vdivs. rewrite vmuls_R. cbv zeta. rsimpl. apply vec_ext; cbn; field; exact P. }
  rewrite E. split; [now eexists|]. split.
  - unfold orth. rewrite dot_minus_l, dot_scale_l. field. exact P.
  - intros k. rewrite norm_le_cmp, !dot_minus_l, !dot_minus_r, !dot_scale_l, !dot_scale_r, (dot_comm d v).
    assert (P' : 0 < dot d d) by (pose proof (dot_pos d); lra).
    set (A := dot v d) in *. set (B := dot d d) in *.
    assert (I : A / B * B = A) by (field; lra). pose proof (Rle_0_sqr (k - A / B)) as Q. unfold Rsqr in Q.
    set (q := A / B) in *. assert (Q2 : 0 <= (k - q) * (k - q) * B) by (apply Rmult_le_pos; lra). rewrite <- I. nra.
Qed.
Print Assumptions C28_project.
Theorem C28_decompose : forall v d : pt, unitv d ->
  let (par, per) := Decompose v d in plus par per = v /\ (exists k, par = scale k d) /\ orth per d.
Proof.
  intros v d U. unfold Decompose, ProjectToNorm. cbv zeta. rewrite Dot_R, vmuls_R, vsub_R. split; [apply vec_ext; gunf; ring|]. split; [now eexists|].
  unfold orth. rewrite dot_minus_l, dot_scale_l, U. ring.
Qed.
Print Assumptions C28_decompose.
Example C28_witness : unitv (V3 (3/5) 0 (4/5)) /\ V3 (3/5) 0 (4/5) <> origin.
Proof. split; [gunf; field|]. unfold origin. intros E. injection E. lra. Qed.
(** Snell's law for the tangential part (sin T = n sin I), and mirror reflection beyond the critical angle. *)
Theorem C28_refract_tangential : forall (v n : pt) (i1 i2 : R), unitv v -> unitv n -> i2 <> 0 ->
  let k := i1 / i2 in let r := Refract v n i1 i2 in
  let tangential w := minus w (scale (dot w n) n) in
  (Rabs k * norm (tangential v) <= 1 -> tangential r = scale k (tangential v)) /\
  (1 < Rabs k * norm (tangential v) -> unitv r /\ tangential r = tangential v /\ dot r n = - dot v n).
Proof.
  intros v n i1 i2 Uv Un Hi k r tg.
  assert (T : norm (tg v) * norm (tg v) = 1 - dot v n * dot v n).
  { rewrite norm_sq. unfold tg. rewrite !dot_minus_l, !dot_minus_r, !dot_scale_l, !dot_scale_r, (dot_comm n v). unfold unitv in *. rewrite Uv, Un. ring. }
  pose proof (norm_pos (tg v)) as P.
  assert (Rr : forall w, Reflect w n = minus (scale (2 * dot w n) n) w) by (intros w; apply Reflect_R).
  unfold r, Refract. rewrite Dot_R. cbv zeta. rsimpl. fold k. rewrite Rr, vneg_R. unfold unitv in *.
  assert (Q : k * k * (1 - dot v n * dot v n) = (Rabs k * norm (tg v)) * (Rabs k * norm (tg v))).
  { rewrite <- T. replace (Rabs k * norm (tg v) * (Rabs k * norm (tg v))) with ((Rabs k * Rabs k) * (norm (tg v) * norm (tg v))) by ring.
    rewrite <- Rabs_mult, (Rabs_pos_eq (k * k)) by nra. ring. }
  assert (Pm : 0 <= Rabs k * norm (tg v)) by (apply Rmult_le_pos; [apply Rabs_pos|exact P]).
  destruct (Rltb_spec 1 (k * k * (1 - dot v n * dot v n))) as [L|L]; split; intros H; rewrite Q in L.
  - exfalso. revert L H Pm. generalize (Rabs k * norm (tg v)). intros m L H Pm. clear - L H Pm. nra.
  - assert (D : dot (minus (scale (2 * dot (scale (-1) v) n) n) (scale (-1) v)) n = - dot v n).
    { rewrite dot_minus_l, !dot_scale_l, Un. ring. }
    split; [|split; [|exact D]].
    + rewrite !dot_minus_l, !dot_minus_r, !dot_scale_l, !dot_scale_r, (dot_comm n v), Uv, Un. ring.
    + unfold tg. rewrite D. rewrite dot_scale_l. apply vec_ext; gunf; ring.
  - unfold tg. toR. rewrite dot_minus_l, !dot_scale_l, Un. apply vec_ext; cbn; ring.
  - exfalso. revert L H Pm. generalize (Rabs k * norm (tg v)). intros m L H Pm. clear - L H Pm. nra.
Qed.
Print Assumptions C28_refract_tangential.
(** But the refracted vector is not the unit vector Snell's law asks for: with equal indices on both sides
    the ray should pass straight through, and it does not. *)
Theorem C28_refract_straight_refuted : exists v n : pt, unitv v /\ unitv n /\ dot v n < 0 /\
  Refract v n 1 1 = scale 3 v /\ norm (Refract v n 1 1) = 3.
Proof.
  exists (V3 0 0 (-1)), (V3 0 0 1). split; [gunf; ring|]. split; [gunf; ring|]. split; [gunf; lra|].
  assert (E : Refract (V3 0 0 (-1)) (V3 0 0 1) 1 1 = scale 3 (V3 0 0 (-1))).
  { unfold Refract. vunf. cbn [vx vy vz].
    destruct (Rltb_spec 1 (1 / 1 * (1 / 1) * (1 - (0 * 0 + 0 * 0 + -1 * 1) * (0 * 0 + 0 * 0 + -1 * 1)))); [lra|].
    replace (1 - 1 / 1 * (1 / 1) * (1 - (0 * 0 + 0 * 0 + -1 * 1) * (0 * 0 + 0 * 0 + -1 * 1))) with 1 by field. rewrite sqrt_1.
    apply vec_ext; cbn; field. }
  split; [exact E|]. rewrite E, norm_scale. rewrite (proj1 (norm_unit (V3 0 0 (-1)))) by (gunf; ring). rewrite Rabs_pos_eq; lra.
Qed.
Print Assumptions C28_refract_straight_refuted.

(** ** C29 *)
(** The component of b orthogonal to a. *)
Definition reject (b a : pt) : pt := minus b (scale (dot b a / dot a a) a).
Lemma reject_orth b a : a <> origin -> dot (reject b a) a = 0.
Proof. intros H. assert (dot a a <> 0) by (intros E; apply H, dot_zero, E). unfold reject. rewrite dot_minus_l, dot_scale_l. now field. Qed.
Lemma ProjectTo_R v d : d <> origin -> ProjectTo v d = scale (dot v d / dot d d) d.
Proof.
  intros Hd. assert (P : dot d d <> 0) by (intros E; apply Hd, dot_zero, E).
  unfold ProjectTo. rewrite Dot_R, LengthSq_R. unfold vdivs. rewrite vmuls_R. cbv zeta. rsimpl. apply vec_ext; cbn; field; exact P.
Qed.
Lemma IsZero_R v : (IsZero v = false) <-> 1 / 10000000 < dot v v.
Proof. unfold IsZero, IsZero_eps. rewrite LengthSq_R. rsimpl. rewrite Rleb_false. reflexivity. Qed.

Theorem C29_orthogonalize : forall a b c : pt, 1 / 10000000 < dot a a -> 1 / 10000000 < dot (reject b a) (reject b a) ->
  let (b', c') := Orthogonalize3 a b c in
  Orthogonalize2 a b = b' /\
  orth a b' /\ orth a c' /\ orth b' c' /\ (exists k, b' = plus b (scale k a)) /\ (exists k l, c' = plus c (plus (scale k a) (scale l b))) /\
  volume a b' c' = volume a b c.
Proof.
  intros a b c Ha Hb.
  assert (Na : a <> origin) by (intros ->; gunf; lra). assert (Nb : reject b a <> origin) by (intros E; rewrite E in Hb; gunf; lra).
  assert (Eb : vsub b (ProjectTo b a) = reject b a) by (rewrite ProjectTo_R by exact Na; reflexivity).
  unfold Orthogonalize2, Orthogonalize3. rewrite (proj2 (IsZero_R a) Ha). cbn [negb].
  rewrite Eb, (proj2 (IsZero_R _) Hb). cbn [negb].
  rewrite !ProjectTo_R by assumption. toR.
  set (c1 := minus c (scale (dot c a / dot a a) a)). set (b1 := reject b a) in *.
  assert (O1 : dot b1 a = 0) by (now apply reject_orth).
  assert (O2 : dot c1 a = 0) by (now apply (reject_orth c a)).
  assert (O3 : dot (minus c1 (scale (dot c1 b1 / dot b1 b1) b1)) b1 = 0) by (now apply (reject_orth c1 b1)).
  split; [reflexivity|]. split; [unfold orth; now rewrite dot_comm|].
  split; [unfold orth; rewrite dot_comm, dot_minus_l, dot_scale_l, O1, O2; ring|]. split; [unfold orth; now rewrite dot_comm|].
  split; [exists (- (dot b a / dot a a)); unfold b1, reject; apply vec_ext; cbn; ring|].
  split.
  - exists (- (dot c a / dot a a) + (dot c1 b1 / dot b1 b1) * (dot b a / dot a a)), (- (dot c1 b1 / dot b1 b1)).
    generalize (dot c1 b1 / dot b1 b1). intros k. unfold c1, b1, reject. apply vec_ext; cbn; ring.
  - generalize (dot c1 b1 / dot b1 b1). intros k. unfold c1, b1, reject. generalize (dot c a / dot a a) (dot b a / dot a a). intros k1 k2.
    unfold volume. cbn. ring.
Qed.
Print Assumptions C29_orthogonalize.
Theorem C29_orthonormalize : forall a b c : pt,
  let b1 := reject b a in let c1 := reject (reject c a) b1 in
  1 / 1000000 < norm a -> 1 / 1000000 < norm b1 -> 1 / 1000000 < norm c1 ->
  let '(a', b', c') := Orthonormalize3 a b c in
  Orthonormalize2 a b = (a', b') /\
  unitv a' /\ unitv b' /\ unitv c' /\ orth a' b' /\ orth a' c' /\ orth b' c' /\
  same_dir a' a /\ same_dir b' b1 /\ same_dir c' c1 /\ 0 < volume a' b' c' * volume a b c.
Proof.
  intros a b c b1 c1 Ha Hb Hc.
  assert (Norm : forall v : pt, 1 / 1000000 < norm v -> Normalized v = scale (/ norm v) v).
  { intros v Hv. unfold Normalized. rewrite Normalize_R. destruct (Rltb_spec eps6 (norm v)); [reflexivity|unfold eps6 in *; lra]. }
  assert (Inv : forall v, 1 / 1000000 < norm v -> 0 < / norm v) by (intros v Hv; apply Rinv_0_lt_compat; lra).
  assert (Proj : forall w v : pt, 1 / 1000000 < norm v -> vsub w (ProjectToNorm w (scale (/ norm v) v)) = reject w v).
  { intros w v Hv. unfold ProjectToNorm. rewrite Dot_R, vmuls_R, vsub_R, dot_scale_r. unfold reject. rewrite <- (norm_sq v).
    apply vec_ext; cbn; field; lra. }
  assert (U : forall v, 1 / 1000000 < norm v -> unitv (scale (/ norm v) v)) by (intros v Hv; apply norm_unit, normalized_unit; lra).
  assert (Na : a <> origin) by (intros ->; rewrite (proj2 (norm_zero origin) eq_refl) in Ha; lra).
  assert (Nb : b1 <> origin) by (intros E; rewrite E, (proj2 (norm_zero origin) eq_refl) in Hb; lra).
  assert (O1 : dot b1 a = 0) by (now apply reject_orth).
  assert (O2 : dot (reject c a) a = 0) by (now apply reject_orth).
  assert (O3 : dot c1 b1 = 0) by (now apply reject_orth).
  assert (O4 : dot c1 a = 0) by (unfold c1, reject at 1; rewrite dot_minus_l, dot_scale_l, O1, O2; ring).
  unfold Orthonormalize2, Orthonormalize3. cbv zeta. rewrite (Norm a Ha), !(Proj _ a Ha). fold b1. rewrite (Norm b1 Hb), (Proj (reject c a) b1 Hb). fold c1. rewrite (Norm c1 Hc).
  split; [reflexivity|]. split; [now apply U|]. split; [now apply U|]. split; [now apply U|].
  unfold orth. rewrite !dot_scale_l, !dot_scale_r, (dot_comm a b1), (dot_comm a c1), (dot_comm b1 c1), O1, O3, O4.
  split; [ring|]. split; [ring|]. split; [ring|].
  split; [exists (/ norm a); split; [now apply Inv|reflexivity]|].
  split; [exists (/ norm b1); split; [now apply Inv|reflexivity]|].
  split; [exists (/ norm c1); split; [now apply Inv|reflexivity]|].
  assert (V : volume a b c = volume a b1 c1).
  { unfold c1, reject at 1. generalize (dot (reject c a) b1 / dot b1 b1). intros k. unfold b1, reject. generalize (dot c a / dot a a) (dot b a / dot a a).
    intros k1 k2. unfold volume. cbn. ring. }
  rewrite V.
  assert (S : volume (scale (/ norm a) a) (scale (/ norm b1) b1) (scale (/ norm c1) c1) = / norm a * / norm b1 * / norm c1 * volume a b1 c1) by (unfold volume; cbn; ring).
  rewrite S.
  assert (W : volume a b1 c1 * volume a b1 c1 = dot a a * dot b1 b1 * dot c1 c1).
  { transitivity (dot a a * (dot b1 b1 * dot c1 c1 - dot c1 b1 * dot c1 b1) - dot b1 a * (dot b1 a * dot c1 c1 - dot c1 b1 * dot c1 a) + dot c1 a * (dot b1 a * dot c1 b1 - dot b1 b1 * dot c1 a)).
    - unfold volume, dot. ring.
    - rewrite O1, O3, O4. ring. }
  assert (P : forall v, 1 / 1000000 < norm v -> 0 < dot v v) by (intros v Hv; rewrite <- norm_sq; nra).
  replace (/ norm a * / norm b1 * / norm c1 * volume a b1 c1 * volume a b1 c1) with ((/ norm a * / norm b1 * / norm c1) * (volume a b1 c1 * volume a b1 c1)) by ring.
  rewrite W. repeat apply Rmult_lt_0_compat; auto.
Qed.
Print Assumptions C29_orthonormalize.
Example C29_witness : let a := V3 1 0 0 in let b := V3 1 1 0 in let c := V3 1 1 1 in
  let b1 := reject b a in let c1 := reject (reject c a) b1 in
  1 / 1000000 < norm a /\ 1 / 1000000 < norm b1 /\ 1 / 1000000 < norm c1 /\ 1 / 10000000 < dot a a /\ 1 / 10000000 < dot b1 b1.
Proof.
  cbv zeta. unfold norm.
  assert (A : dot (V3 1 0 0) (V3 1 0 0) = 1) by (gunf; ring).
  assert (B : reject (V3 1 1 0) (V3 1 0 0) = V3 0 1 0) by (unfold reject; apply vec_ext; gunf; field).
  assert (B' : reject (V3 1 1 1) (V3 1 0 0) = V3 0 1 1) by (unfold reject; apply vec_ext; gunf; field).
  assert (C : reject (V3 0 1 1) (V3 0 1 0) = V3 0 0 1) by (unfold reject; apply vec_ext; gunf; field).
  rewrite B, B', C, A. replace (dot (V3 0 1 0) (V3 0 1 0)) with 1 by (gunf; ring). replace (dot (V3 0 0 1) (V3 0 0 1)) with 1 by (gunf; ring).
  rewrite sqrt_1. lra.
Qed.
