(** Capsules, continued (C50): extreme points, enclosing boxes, cross sections, intersections, transforms. *)
From Coq Require Import Reals Psatz List Bool.
From Verif Require Import Num NumR ScalarModel ScalarProofs Vec3Model GeoTypes GeoSpec GeoLemmas Vec3Props AabbModel AabbSpec AabbProofs AabbProps MatModel MatSpec MatProofs MatProofs2 LineModel LineSpec LineProofs LineProofs2 LineProps
  RotModel RotSpec RotProofs RotProofs3 PlaneModel PlaneSpec PlaneProps PlaneProps2 PlaneProps3 PlaneProps4 SphereModel SphereSpec SphereProps SphereProps2 TriangleModel TriangleSpec TriangleProps TriangleProps2 TriangleProps4 TriangleProps5 CircleModel CircleProps CapsuleModel CapsuleProps.
Import ListNotations.
Open Scope R_scope.
Ltac Zify.zify_post_hook ::= idtac.

Lemma seg_ends' (s : segment R) : on_segment s (seg_a s) /\ on_segment s (seg_b s).
Proof. split; [exists 0|exists 1]; (split; [lra|gunf; apply vec_ext; cbn [vx vy vz]; ring]). Qed.
Lemma pt_pos_norm (d : pt) : d <> origin -> 0 < norm d.
Proof. intros N. pose proof (norm_pos d). destruct (Req_dec (norm d) 0) as [E|E]; [|lra]. apply norm_zero in E. contradiction. Qed.

(** ** Extreme points and projections *)
Theorem C50_extreme (c : capsule R) (d : pt) : 0 <= cap_r c -> d <> origin -> let e := Capsule_ExtremePoint c d in
  in_capsule c e /\ (forall p, in_capsule c p -> dot d p <= dot d e) /\ Capsule_ExtremePointDist c d = (e, dot e d).
Proof.
  intros Rc N e. pose proof (pt_pos_norm d N) as P. split; [|split; [|reflexivity]]; unfold e, Capsule_ExtremePoint; change (@Dot R Num_R) with dot; change (@vsub R Num_R) with minus; change (@vadd R Num_R) with plus;
    change (@Length R Num_R) with norm; rewrite vmuls_R; rsimpl; destruct (seg_ends' (cap_l c)) as [Sa Sb]; set (a := seg_a (cap_l c)) in *; set (b := seg_b (cap_l c)) in *.
  - destruct (Rleb_spec 0 (dot d (minus b a))); [exists b|exists a]; (split; [assumption|rewrite dist_plus, scaled_norm; lra]).
  - intros p (q & (k & K & ->) & D). fold a b in D. set (q := plus a (scale k (minus b a))) in *. pose proof (cauchy d (minus p q)) as Cs. fold (dist p q) in Cs. rewrite dist_sym in Cs.
    pose proof (Rle_abs (dot d (minus p q))) as A. rewrite dot_minus_r in A, Cs. assert (Q : dot d q = dot d a + k * dot d (minus b a)) by (unfold q; rewrite dot_plus_r, dot_scale_r; ring).
    assert (T : dot d (scale (cap_r c / norm d) d) = cap_r c * norm d) by (rewrite dot_scale_r, <- norm_sq; field; lra). pose proof (dot_minus_r b a d) as Eb.
    assert (norm d * dist q p <= norm d * cap_r c) by nra. rewrite dot_plus_r, T. destruct (Rleb_spec 0 (dot d (minus b a))); nra.
Qed.
Print Assumptions C50_extreme.
Theorem C50_project (c : capsule R) (d : pt) : 0 <= cap_r c -> unitv d -> let '(lo, hi) := Capsule_ProjectToAxis c d in
  (exists p, in_capsule c p /\ dot d p = lo) /\ (exists p, in_capsule c p /\ dot d p = hi) /\ forall p, in_capsule c p -> lo <= dot d p <= hi.
Proof.
  intros Rc U. unfold Capsule_ProjectToAxis. change (@Dot R Num_R) with dot. rsimpl. destruct (seg_ends' (cap_l c)) as [Sa Sb]. set (a := seg_a (cap_l c)) in *. set (b := seg_b (cap_l c)) in *.
  pose proof (unit_norm1 d U) as N1.
  assert (E : forall q s, on_segment (cap_l c) q -> s * s = 1 -> exists p, in_capsule c p /\ dot d p = dot d q + s * cap_r c).
  { intros q s Q Hs. exists (plus q (scale (s * cap_r c) d)). unfold unitv in U. rewrite dot_plus_r, dot_scale_r, U. split; [|ring]. exists q. split; [exact Q|]. rewrite dist_plus, norm_scale, N1.
    rewrite Rabs_mult, (Rabs_pos_eq (cap_r c)) by exact Rc. assert (Rabs s <= 1); [|nra]. apply Rabs_le. nra. }
  assert (B : forall p, in_capsule c p -> exists k, 0 <= k <= 1 /\ Rabs (dot d p - (dot d a + k * (dot d b - dot d a))) <= cap_r c).
  { intros p (q & (k & K & Eq) & D). exists k. split; [exact K|]. fold a b in Eq. pose proof (cauchy d (minus p q)) as Cs. fold (dist p q) in Cs. rewrite dist_sym, N1, Rmult_1_l in Cs. rewrite dot_minus_r in Cs.
    replace (dot d a + k * (dot d b - dot d a)) with (dot d q) by (rewrite Eq, dot_plus_r, dot_scale_r, dot_minus_r; ring). lra. }
  destruct (E a 1 Sa ltac:(ring)) as (pa & Pa & Ea), (E a (-1) Sa ltac:(ring)) as (qa & Qa & Fa), (E b 1 Sb ltac:(ring)) as (pb & Pb & Eb), (E b (-1) Sb ltac:(ring)) as (qb & Qb & Fb).
  destruct (Rltb_spec (dot d b) (dot d a)) as [L|L]; (split; [|split]).
  - exists qb. split; [exact Qb|lra].
  - exists pa. split; [exact Pa|lra].
  - intros p Ip. destruct (B p Ip) as (k & K & Ab). unfold Rabs in Ab. destruct Rcase_abs in Ab; nra.
  - exists qa. split; [exact Qa|lra].
  - exists pb. split; [exact Pb|lra].
  - intros p Ip. destruct (B p Ip) as (k & K & Ab). unfold Rabs in Ab. destruct Rcase_abs in Ab; nra.
Qed.
Print Assumptions C50_project.
Example C50_extreme_witness : 0 <= cap_r (Cap (Seg (V3 0 0 0) (V3 4 0 0)) 1) /\ unitv (V3 (3/5) 0 (4/5)) /\ (V3 1 2 3 : pt) <> origin.
Proof. split; [cbn; lra|]. split; [unfold unitv, dot; cbn; lra|]. intros E. apply (f_equal vx) in E. cbn in E. lra. Qed.

(** ** Height, top and bottom *)
(** The axis is longer than a millionth (otherwise UpDirection is (1,0,0)). *)
Definition long_axis (c : capsule R) : Prop := 1 / 1000000 < dist (seg_a (cap_l c)) (seg_b (cap_l c)).
Lemma up_R (c : capsule R) : long_axis c -> let L := dist (seg_a (cap_l c)) (seg_b (cap_l c)) in
  unitv (Capsule_UpDirection c) /\ minus (seg_b (cap_l c)) (seg_a (cap_l c)) = scale L (Capsule_UpDirection c).
Proof.
  intros H L. unfold long_axis in H. fold L in H. assert (E : Capsule_UpDirection c = scale (/ L) (minus (seg_b (cap_l c)) (seg_a (cap_l c)))).
  { unfold Capsule_UpDirection. change (@vsub R Num_R) with minus. rewrite Normalized_R; unfold L in *; rewrite dist_sym in *; unfold dist in *; [reflexivity|exact H]. }
  rewrite E. split.
  - unfold unitv. rewrite dot_scale_l, dot_scale_r, <- norm_sq. fold (dist (seg_b (cap_l c)) (seg_a (cap_l c))). rewrite dist_sym. fold L. field. lra.
  - gunf. apply vec_ext; cbn [vx vy vz]; field; lra.
Qed.
Theorem C50_height (c : capsule R) : long_axis c -> 0 <= cap_r c -> let up := Capsule_UpDirection c in
  unitv up /\ same_dir up (minus (seg_b (cap_l c)) (seg_a (cap_l c))) /\ in_capsule c (Capsule_Bottom c) /\ in_capsule c (Capsule_Top c) /\ in_capsule c (Capsule_Center c) /\
  (forall p, in_capsule c p -> dot up (Capsule_Bottom c) <= dot up p <= dot up (Capsule_Top c)) /\
  dist (Capsule_Bottom c) (Capsule_Top c) = Capsule_Height c /\ (forall p q, in_capsule c p -> in_capsule c q -> dist p q <= Capsule_Height c) /\
  Capsule_HeightLineSegment c = Seg (Capsule_Bottom c) (Capsule_Top c).
Proof.
  intros H Rc up. destruct (up_R c H) as [U E]. fold up in U, E. unfold long_axis in H. destruct (seg_ends' (cap_l c)) as [Sa Sb]. set (a := seg_a (cap_l c)) in *. set (b := seg_b (cap_l c)) in *. set (L := dist a b) in *.
  assert (Bo : Capsule_Bottom c = minus a (scale (cap_r c) up)) by (unfold Capsule_Bottom; change (@vsub R Num_R) with minus; rewrite vmuls_R; reflexivity).
  assert (To : Capsule_Top c = plus b (scale (cap_r c) up)) by (unfold Capsule_Top; change (@vadd R Num_R) with plus; rewrite vmuls_R; reflexivity).
  assert (Hh : Capsule_Height c = L + 2 * cap_r c) by reflexivity. pose proof (unit_norm1 up U) as N1. unfold unitv in U.
  assert (Ub : dot up b = dot up a + L). { replace b with (plus a (minus b a)) at 1 by (gunf; apply vec_ext; cbn [vx vy vz]; ring). rewrite E, dot_plus_r, dot_scale_r, U. ring. }
  split; [exact U|]. split; [rewrite E; exists (/ L); split; [apply Rinv_0_lt_compat; lra|gunf; apply vec_ext; cbn [vx vy vz]; field; lra]|].
  split; [exists a; split; [exact Sa|]; rewrite Bo; replace (minus a (scale (cap_r c) up)) with (plus a (scale (- cap_r c) up)) by (gunf; apply vec_ext; cbn [vx vy vz]; ring); rewrite dist_plus, norm_scale, N1, Rabs_Ropp, Rabs_pos_eq; lra|].
  split; [exists b; split; [exact Sb|]; rewrite To, dist_plus, norm_scale, N1, Rabs_pos_eq; lra|].
  split. { exists (Capsule_Center c). split; [|rewrite (proj2 (dist_zero _ _) eq_refl); exact Rc]. exists (1/2). split; [lra|]. unfold Capsule_Center, Seg_CenterPoint. fold a b. vunf. gunf. rsimpl. apply vec_ext; cbn [vx vy vz]; field. }
  split. { intros p (q & (k & K & Eq) & D). fold a b in Eq. pose proof (cauchy up (minus p q)) as Cs. fold (dist p q) in Cs. rewrite dist_sym, N1, Rmult_1_l, dot_minus_r in Cs.
    assert (dot up q = dot up a + k * L) by (rewrite Eq, E, dot_plus_r, !dot_scale_r, U; ring). rewrite Bo, To, dot_minus_r, dot_plus_r, dot_scale_r, U, Ub. unfold Rabs in Cs. destruct Rcase_abs in Cs; nra. }
  split. { rewrite Bo, To, Hh. unfold dist. replace (minus (minus a (scale (cap_r c) up)) (plus b (scale (cap_r c) up))) with (scale (- (L + 2 * cap_r c)) up).
    - rewrite norm_scale, N1, Rabs_Ropp, Rabs_pos_eq; lra.
    - replace b with (plus a (scale L up)) by (rewrite <- E; gunf; apply vec_ext; cbn [vx vy vz]; ring). gunf. apply vec_ext; cbn [vx vy vz]; ring. }
  split; [|reflexivity]. intros p q (x & (k & K & Ex) & Dx) (y & (j & J & Ey) & Dy). fold a b in Ex, Ey. rewrite Hh.
  assert (dist x y <= L). { rewrite Ex, Ey. unfold dist. replace (minus (plus a (scale k (minus b a))) (plus a (scale j (minus b a)))) with (scale (k - j) (minus b a)) by (gunf; apply vec_ext; cbn [vx vy vz]; ring).
    rewrite norm_scale. fold (dist b a). rewrite dist_sym. fold L. assert (Rabs (k - j) <= 1) by (apply Rabs_le; lra). nra. }
  pose proof (dist_triangle p x q). pose proof (dist_triangle x y q). rewrite (dist_sym p x) in *. lra.
Qed.
Print Assumptions C50_height.
Example C50_height_witness : long_axis (Cap (Seg (V3 0 0 0) (V3 4 0 0)) 1).
Proof. unfold long_axis. cbn [cap_l seg_a seg_b]. replace (dist _ _) with 4; [lra|]. symmetry. apply norm_is; [lra|]. gunf. ring. Qed.

(** ** Cross sections *)
(** Membership in coordinates: height above a along the axis, and the rest. *)
Lemma clamp_near t L x : 0 <= x <= L -> (t - Rmax 0 (Rmin t L)) * (t - Rmax 0 (Rmin t L)) <= (t - x) * (t - x).
Proof.
  intros H. unfold Rmin. destruct (Rle_dec t L) as [A|A]; unfold Rmax; [destruct (Rle_dec 0 t) as [B|B]|destruct (Rle_dec 0 L) as [B|B]].
  - replace (t - t) with 0 by ring. rewrite Rmult_0_l. apply Rle_0_sqr.
  - nra.
  - nra.
  - lra.
Qed.
Lemma in_capsule_coord (c : capsule R) p : long_axis c -> 0 <= cap_r c -> let up := Capsule_UpDirection c in let L := dist (seg_a (cap_l c)) (seg_b (cap_l c)) in
  let w := minus p (seg_a (cap_l c)) in let t := dot up w in let k := Rmax 0 (Rmin t L) in
  in_capsule c p <-> dot w w - t * t + (t - k) * (t - k) <= cap_r c * cap_r c.
Proof.
  intros H Rc up L w t k. destruct (up_R c H) as [U E]. fold up L in U, E. unfold long_axis in H. fold L in H. unfold unitv in U.
  assert (D : forall x, dist (along (seg_a (cap_l c)) up x) p * dist (along (seg_a (cap_l c)) up x) p = dot w w - t * t + (t - x) * (t - x)).
  { intros x. rewrite dist_sym. unfold dist. rewrite norm_sq. replace (minus p (along (seg_a (cap_l c)) up x)) with (minus w (scale x up)) by (unfold w, along; gunf; apply vec_ext; cbn [vx vy vz]; ring).
    rewrite dot_minus_l, !dot_minus_r, !dot_scale_l, !dot_scale_r, (dot_comm w up), U. unfold t. ring. }
  unfold in_capsule. split.
  - intros (q & (j & J & ->) & Q). rewrite E in Q. replace (plus (seg_a (cap_l c)) (scale j (scale L up))) with (along (seg_a (cap_l c)) up (j * L)) in Q by (unfold along; gunf; apply vec_ext; cbn [vx vy vz]; ring).
    pose proof (D (j * L)) as Dj. pose proof (norm_pos (minus (along (seg_a (cap_l c)) up (j * L)) p)) as NP. fold (dist (along (seg_a (cap_l c)) up (j * L)) p) in NP. assert (JL : 0 <= j * L <= L) by nra. set (x := j * L) in *. clearbody x.
    pose proof (clamp_near t L x JL) as CN. fold k in CN. set (z := dist _ p) in *. assert (z * z <= cap_r c * cap_r c) by (apply Rmult_le_compat; assumption). lra.
  - intros Q. exists (along (seg_a (cap_l c)) up k). assert (K : 0 <= k <= L) by (unfold k, Rmax, Rmin; repeat destruct Rle_dec; lra). split.
    + exists (k / L). split; [split; [apply Rmult_le_pos; [lra|left; apply Rinv_0_lt_compat; lra]|apply (Rmult_le_reg_r L); [lra|]; replace (k / L * L) with k by (field; lra); lra]|].
      rewrite E. unfold along. gunf. apply vec_ext; cbn [vx vy vz]; field; lra.
    + apply dist_sq_mono; [apply norm_pos|exact Rc|]. rewrite D. exact Q.
Qed.
Lemma section_R (c : capsule R) y : long_axis c -> let L := dist (seg_a (cap_l c)) (seg_b (cap_l c)) in let h := y * Capsule_Height c in let r := cap_r c in
  circ_pos (Capsule_CrossSection c y) = along (seg_a (cap_l c)) (Capsule_UpDirection c) (h - r) /\ circ_normal (Capsule_CrossSection c y) = Capsule_UpDirection c /\
  circ_r (Capsule_CrossSection c y) = (if Rltb h r then sqrt (r * r - (r - h) * (r - h)) else if Rltb h (L + r) then r else sqrt (r * r - (h - r - L) * (h - r - L))).
Proof.
  intros H L h r. unfold Capsule_CrossSection. change (Seg_Length (cap_l c)) with L. change (@vadd R Num_R) with plus. rewrite vmuls_R. rsimpl. fold h. fold r.
  assert (P : plus (Capsule_Bottom c) (scale h (Capsule_UpDirection c)) = along (seg_a (cap_l c)) (Capsule_UpDirection c) (h - r)).
  { unfold Capsule_Bottom. change (@vsub R Num_R) with minus. rewrite vmuls_R. fold r. unfold along. gunf. apply vec_ext; cbn [vx vy vz]; ring. }
  destruct (Rltb h r); [|destruct (Rltb h (L + r))]; cbn [circ_pos circ_normal circ_r]; rewrite ?P; auto.
Qed.
(** The cross section at relative height y is the set of the capsule's points at height y * Height above Bottom. *)
Theorem C50_cross_section (c : capsule R) (y : R) (p : pt) : long_axis c -> 0 <= cap_r c -> 0 <= y <= 1 -> let up := Capsule_UpDirection c in
  on_disc (Capsule_CrossSection c y) p <-> in_capsule c p /\ dot up (minus p (Capsule_Bottom c)) = y * Capsule_Height c.
Proof.
  intros H Rc Y up. rewrite (in_capsule_coord c p H Rc). destruct (section_R c y H) as (Ep & En & Er). destruct (up_R c H) as [U E]. unfold on_disc. rewrite Ep, En, Er. clear Ep En Er. fold up in U, E |- *.
  assert (Hh : Capsule_Height c = dist (seg_a (cap_l c)) (seg_b (cap_l c)) + 2 * cap_r c) by reflexivity. unfold long_axis in H. set (L := dist (seg_a (cap_l c)) (seg_b (cap_l c))) in *. set (h := y * Capsule_Height c) in *.
  assert (B : dot up (minus p (Capsule_Bottom c)) = dot up (minus p (seg_a (cap_l c))) + cap_r c).
  { unfold Capsule_Bottom. change (@vsub R Num_R) with minus. rewrite vmuls_R. fold up. unfold unitv in U. rewrite !dot_minus_r, dot_scale_r, U. ring. }
  rewrite B. set (w := minus p (seg_a (cap_l c))) in *. set (t := dot up w) in *. set (r := cap_r c) in *. set (o := along (seg_a (cap_l c)) up (h - r)).
  assert (Z : dot up (minus p o) = t - (h - r)). { unfold unitv in U. replace (minus p o) with (minus w (scale (h - r) up)) by (unfold w, o, along; gunf; apply vec_ext; cbn [vx vy vz]; ring). rewrite dot_minus_r, dot_scale_r, U. unfold t. ring. }
  assert (D : dist o p * dist o p = dot w w - t * t + (t - (h - r)) * (t - (h - r))).
  { rewrite dist_sym. unfold dist. rewrite norm_sq. replace (minus p o) with (minus w (scale (h - r) up)) by (unfold w, o, along; gunf; apply vec_ext; cbn [vx vy vz]; ring).
    unfold unitv in U. rewrite dot_minus_l, !dot_minus_r, !dot_scale_l, !dot_scale_r, (dot_comm w up), U. unfold t. ring. }
  rewrite Z. pose proof (norm_pos (minus o p)) as NP. fold (dist o p) in NP. assert (Hr : 0 <= h <= L + 2 * r) by (unfold h; rewrite Hh; nra). clearbody h. clear Hh Y B Z.
  set (x := dist o p) in *. set (ww := dot w w) in *. clearbody x ww t. clear o w E U p.
  assert (SQ : forall z, 0 <= z -> (x <= sqrt z <-> x * x <= z)).
  { intros z Hz. pose proof (sqrt_sqrt z Hz). pose proof (sqrt_pos z). split; intros; nra. }
  split.
  - intros [T X]. assert (Et : t = h - r) by lra. split; [|lra]. subst t. replace (h - r - (h - r)) with 0 in D by ring.
    destruct (Rltb_spec h r) as [L1|L1]; [|destruct (Rltb_spec h (L + r)) as [L2|L2]].
    + apply SQ in X; [|nra]. replace (Rmax 0 (Rmin (h - r) L)) with 0 by (unfold Rmax, Rmin; repeat destruct Rle_dec; lra). lra.
    + replace (Rmax 0 (Rmin (h - r) L)) with (h - r) by (unfold Rmax, Rmin; repeat destruct Rle_dec; lra). assert (x * x <= r * r) by nra. lra.
    + apply SQ in X; [|nra]. replace (Rmax 0 (Rmin (h - r) L)) with L by (unfold Rmax, Rmin; repeat destruct Rle_dec; lra). lra.
  - intros [X T]. assert (Et : t = h - r) by lra. split; [lra|]. subst t. replace (h - r - (h - r)) with 0 in D by ring.
    destruct (Rltb_spec h r) as [L1|L1]; [|destruct (Rltb_spec h (L + r)) as [L2|L2]].
    + apply SQ; [nra|]. replace (Rmax 0 (Rmin (h - r) L)) with 0 in X by (unfold Rmax, Rmin; repeat destruct Rle_dec; lra). lra.
    + replace (Rmax 0 (Rmin (h - r) L)) with (h - r) in X by (unfold Rmax, Rmin; repeat destruct Rle_dec; lra). assert (x * x <= r * r) by lra. nra.
    + apply SQ; [nra|]. replace (Rmax 0 (Rmin (h - r) L)) with L in X by (unfold Rmax, Rmin; repeat destruct Rle_dec; lra). lra.
Qed.
Print Assumptions C50_cross_section.
