(** Properties C39 (planes: construction, distance, projection, mirroring) and C40 (moving planes), over the reals. *)
From Coq Require Import Reals Lra Psatz Bool ZArith List.
From Verif Require Import Num NumR ScalarModel ScalarProofs Vec3Model Vec3Props GeoTypes GeoSpec GeoLemmas AabbSpec AabbModel AabbProps2 MatModel MatSpec MatProofs MatProofs2 MatProps
  LineModel LineSpec LineProofs LineProofs2 LineProps GMatModel GMatProofs RotModel RotSpec RotProofs PlaneModel PlaneSpec.
Import ListNotations.
Open Scope R_scope.

Ltac toG := change (@Dot R Num_R) with dot in *; change (@vsub R Num_R) with minus in *; change (@vadd R Num_R) with plus in *; change (@smulv R Num_R) with scale in *.
Lemma SD_R (P : plane R) (p : pt) : Plane_SignedDistance P p = height P p.
Proof. reflexivity. Qed.
Lemma Project_R (P : plane R) (p : pt) : Plane_Project P p = minus p (scale (height P p) (pnormal P)).
Proof. reflexivity. Qed.
Lemma height_zero P p : height P p = 0 <-> on_plane P p.
Proof. unfold height, on_plane. split; lra. Qed.
Lemma height_shift P p k : unitv (pnormal P) -> height P (plus p (scale k (pnormal P))) = height P p + k.
Proof. intros U. unfold height. rewrite dot_plus_r, dot_scale_r, U. ring. Qed.
Lemma height_sub P p k : unitv (pnormal P) -> height P (minus p (scale k (pnormal P))) = height P p - k.
Proof. intros U. unfold height. rewrite dot_minus_r, dot_scale_r, U. ring. Qed.
Lemma unit_norm1 v : unitv v -> norm v = 1.
Proof. intros U. unfold norm. rewrite U. apply sqrt_1. Qed.
Lemma height_dist P p q : unitv (pnormal P) -> on_plane P q -> Rabs (height P p) <= dist q p.
Proof.
  intros U Q. replace (height P p) with (dot (pnormal P) (minus p q)) by (unfold height; rewrite dot_minus_r, Q; ring).
  eapply Rle_trans; [apply cauchy|]. rewrite (unit_norm1 _ U), Rmult_1_l. fold (dist p q). rewrite dist_sym. lra.
Qed.
Lemma dist_shift p k n : unitv n -> dist p (minus p (scale k n)) = Rabs k.
Proof.
  intros U. unfold dist. replace (minus p (minus p (scale k n))) with (scale k n) by (gunf; apply vec_ext; cbn [vx vy vz]; ring).
  now rewrite norm_scale, (unit_norm1 _ U), Rmult_1_r.
Qed.
Lemma plane_distance P (A : pt -> Prop) x : unitv (pnormal P) -> (exists p, A p /\ Rabs (height P p) = x) -> (forall p, A p -> x <= Rabs (height P p)) ->
  distance_is (on_plane P) A x.
Proof.
  intros U (p & Ap & E) M. split.
  - exists (minus p (scale (height P p) (pnormal P))), p. split; [apply height_zero; rewrite height_sub by exact U; ring|]. split; [exact Ap|].
    now rewrite dist_sym, dist_shift.
  - intros q p' Q A'. eapply Rle_trans; [apply (M p' A')|]. now apply height_dist.
Qed.

(** ** C39 *)
Theorem C39_through_points (v1 v2 v3 : pt) : Cross (minus v2 v1) (minus v3 v1) <> origin ->
  let P := Plane_Set3 v1 v2 v3 in unitv (pnormal P) /\ on_plane P v1 /\ on_plane P v2 /\ on_plane P v3 /\ 0 < volume (minus v2 v1) (minus v3 v1) (pnormal P).
Proof.
  intros N. unfold Plane_Set3. toG. change (@Length R Num_R) with norm. set (c := Cross (minus v2 v1) (minus v3 v1)) in *.
  assert (L : 0 < norm c) by (destruct (norm_pos c) as [H|H]; [exact H|symmetry in H; apply norm_zero in H; contradiction]).
  assert (E : vdivs c (norm c) = scale (/ norm c) c) by (unfold vdivs; rsimpl; gunf; apply vec_ext; cbn [vx vy vz]; field; lra). rewrite E. cbn [pnormal pd].
  destruct (C26_dot_cross (minus v2 v1) (minus v3 v1) c) as (O1 & O2 & O3 & _ & _ & V & _). fold c in O1, O2, O3, V. unfold orth in *.
  split; [unfold unitv; rewrite dot_scale_l, dot_scale_r, <- norm_sq; field; lra|]. unfold on_plane. cbn [pnormal pd]. split; [reflexivity|].
  rewrite !dot_minus_l in O1, O2. rewrite !dot_scale_l, !(dot_comm c). split; [rewrite <- (Rmult_1_l (dot v2 c)); f_equal; lra || (rewrite Rmult_1_l; f_equal; lra)|].
  split; [f_equal; lra|]. replace (volume (minus v2 v1) (minus v3 v1) (scale (/ norm c) c)) with (/ norm c * volume (minus v2 v1) (minus v3 v1) c) by (unfold volume; gunf; cbn [vx vy vz]; ring).
  apply Rmult_lt_0_compat; [now apply Rinv_0_lt_compat|]. replace (volume (minus v2 v1) (minus v3 v1) c) with (dot c c); [rewrite <- norm_sq; nra|]. unfold c, Cross. rsimpl. gunf. cbn [vx vy vz]. ring.
Qed.
Print Assumptions C39_through_points.
Example C39_through_points_witness : Cross (minus (V3 2 0 0) (V3 1 0 0) : pt) (minus (V3 1 0 3) (V3 1 0 0)) <> origin.
Proof. unfold Cross. rsimpl. gunf. intros E. injection E. cbn. lra. Qed.

(** A plane through a point; through a line, ray or segment, with the normal as near as possible to the given one. *)
Lemma perp_plane (n u x : pt) : u <> origin -> eps6 < norm (minus n (scale (dot n u / dot u u) u)) ->
  let m := Normalized (minus n (scale (dot n u / dot u u) u)) in unitv m /\ dot m u = 0 /\ 0 < dot m n.
Proof.
  intros N L m. assert (D : dot u u <> 0) by (intros Z; apply N; now apply dot_zero). set (w := minus n (scale (dot n u / dot u u) u)) in *.
  assert (E6 : 0 < eps6) by (unfold eps6; lra).
  assert (E : m = scale (/ norm w) w) by (apply Normalized_R, L). assert (O : dot w u = 0) by (unfold w; rewrite dot_minus_l, dot_scale_l; field; exact D).
  assert (W : dot w n = dot w w) by (unfold w at 3; rewrite dot_minus_r, dot_scale_r, O; ring).
  rewrite E. unfold unitv. rewrite !dot_scale_l, !dot_scale_r, O, W, <- norm_sq. assert (norm w <> 0) by lra. split; [field; lra|]. split; [ring|].
  rewrite <- Rmult_assoc, Rinv_l, Rmult_1_l by assumption. lra.
Qed.
Theorem C39_containing (x n : pt) (r : ray R) (l : line R) (s : segment R) : unitv (rdir r) -> unitv (ldir l) -> proper_seg s ->
  (on_plane (Plane_Set x n) x /\ pnormal (Plane_Set x n) = n) /\
  (eps6 < norm (minus n (scale (dot n (rdir r)) (rdir r))) -> let P := Plane_FromRay r n in
     unitv (pnormal P) /\ 0 < dot (pnormal P) n /\ forall p, on_ray r p -> on_plane P p) /\
  (eps6 < norm (minus n (scale (dot n (ldir l)) (ldir l))) -> let P := Plane_FromLine l n in
     unitv (pnormal P) /\ 0 < dot (pnormal P) n /\ forall p, on_line l p -> on_plane P p) /\
  (eps6 < norm (minus n (scale (dot n (sdir s) / dot (sdir s) (sdir s)) (sdir s))) -> let P := Plane_FromSegment s n in
     unitv (pnormal P) /\ 0 < dot (pnormal P) n /\ forall p, on_segment s p -> on_plane P p).
Proof.
  intros U V W. assert (NZ : forall u, unitv u -> u <> origin) by (intros u Hu ->; unfold unitv in Hu; revert Hu; unfold dot, origin; cbn; lra).
  assert (Q : forall n u, unitv u -> minus n (scale (dot n u) u) = minus n (scale (dot n u / dot u u) u)) by (intros ? ? Hu; rewrite Hu; do 2 f_equal; field).
  split; [split; [unfold on_plane, Plane_Set; cbn; toG; apply dot_comm|reflexivity]|]. split; [|split].
  - intros L. rewrite (Q _ _ U) in L. destruct (perp_plane n (rdir r) (rpos r) (NZ _ U) L) as (A & B & C). unfold Plane_FromRay, ProjectToNorm. toG. rewrite vmuls_R, (Q _ _ U). cbn [pnormal Plane_Set].
    split; [exact A|]. split; [exact C|]. intros p (t & _ & ->). unfold on_plane, Plane_Set. cbn [pnormal pd]. toG. unfold along. rewrite dot_plus_r, dot_scale_r, B, (dot_comm (rpos r)). ring.
  - intros L. rewrite (Q _ _ V) in L. destruct (perp_plane n (ldir l) (lpos l) (NZ _ V) L) as (A & B & C). unfold Plane_FromLine, ProjectToNorm. toG. rewrite vmuls_R, (Q _ _ V). cbn [pnormal Plane_Set].
    split; [exact A|]. split; [exact C|]. intros p (t & ->). unfold on_plane, Plane_Set. cbn [pnormal pd]. toG. unfold along. rewrite dot_plus_r, dot_scale_r, B, (dot_comm (lpos l)). ring.
  - intros L. assert (N : sdir s <> origin) by (intros Z; apply (proper_dir s W); rewrite Z; unfold dot, origin; cbn; ring).
    destruct (perp_plane n (sdir s) (seg_a s) N L) as (A & B & C). unfold Plane_FromSegment. toG. fold (sdir s). rewrite (ProjectTo_R n (sdir s) N). cbn [pnormal Plane_Set].
    split; [exact A|]. split; [exact C|]. intros p (t & _ & ->). fold (sdir s). unfold on_plane, Plane_Set. cbn [pnormal pd]. toG. rewrite dot_plus_r, dot_scale_r, B, (dot_comm (seg_a s)). ring.
Qed.
Print Assumptions C39_containing.
Example C39_containing_witness : eps6 < norm (minus (V3 1 2 0) (scale (dot (V3 1 2 0) (V3 1 0 0)) (V3 1 0 0))).
Proof. replace (minus _ _) with (V3 0 2 0) by (gunf; apply vec_ext; cbn; ring). unfold norm. replace (dot _ _) with (2 * 2) by (gunf; cbn; ring). rewrite sqrt_square; unfold eps6; lra. Qed.

(** Signed distance of a point, projection, half-space projections. *)
Theorem C39_distance (P : plane R) (p : pt) : unitv (pnormal P) ->
  signed_distance_is P (single p) (Plane_SignedDistance P p) /\ distance_is (on_plane P) (single p) (Plane_Distance P p) /\
  nearest (on_plane P) p (Plane_Project P p) /\ p = plus (Plane_Project P p) (scale (Plane_SignedDistance P p) (pnormal P)) /\
  nearest (below P) p (Plane_ProjectToNegativeHalf P p) /\ nearest (above P) p (Plane_ProjectToPositiveHalf P p) /\
  (Plane_IsOnPositiveSide P p = true <-> above P p) /\
  on_plane P (Plane_PointOnPlane P) /\ nearest (on_plane P) origin (Plane_PointOnPlane P).
Proof.
  intros U. assert (D : distance_is (on_plane P) (single p) (Rabs (height P p))).
  { apply plane_distance; [exact U|exists p; split; [reflexivity|reflexivity]|intros q ->; lra]. }
  assert (NP : forall p, nearest (on_plane P) p (Plane_Project P p)).
  { intros q. rewrite Project_R. split; [apply height_zero; rewrite height_sub by exact U; ring|]. intros a' A'. rewrite dist_sym, dist_shift by exact U. now apply height_dist. }
  split. { rewrite SD_R. split; [exact D|]. unfold single, height. split; split; intros H; try (intros ? ->; lra); specialize (H p eq_refl); lra. }
  split; [unfold Plane_Distance; rewrite Abs_R, SD_R; exact D|]. split; [apply NP|].
  split; [change (Plane_Project P p) with (minus p (scale (height P p) (pnormal P))); change (Plane_SignedDistance P p) with (height P p); generalize (height P p); intros k; gunf; apply vec_ext; cbn [vx vy vz]; ring|].
  assert (HB : forall q a, Rabs (height P q - height P a) <= dist a q).
  { intros q a. replace (height P q - height P a) with (dot (pnormal P) (minus q a)) by (unfold height; rewrite dot_minus_r; ring).
    eapply Rle_trans; [apply cauchy|]. rewrite (unit_norm1 _ U), Rmult_1_l. fold (dist q a). rewrite dist_sym. lra. }
  split. { unfold Plane_ProjectToNegativeHalf. toG. rewrite Max_R. rsimpl. fold (height P p). split.
    - unfold below. enough (height P (minus p (scale (Rmax 0 (height P p)) (pnormal P))) <= 0) by (unfold height in *; lra). rewrite height_sub by exact U. pose proof (Rmax_r 0 (height P p)). lra.
    - intros a A. rewrite dist_sym, dist_shift by exact U. unfold below in A. specialize (HB p a). assert (height P a <= 0) by (unfold height; lra).
      unfold Rmax. destruct (Rle_dec 0 (height P p)); [|rewrite Rabs_R0; apply norm_pos]. rewrite Rabs_pos_eq by lra. rewrite Rabs_pos_eq in HB by lra. lra. }
  split. { unfold Plane_ProjectToPositiveHalf. toG. rewrite Min_R. rsimpl. fold (height P p). split.
    - unfold above. enough (0 <= height P (minus p (scale (Rmin 0 (height P p)) (pnormal P)))) by (unfold height in *; lra). rewrite height_sub by exact U. pose proof (Rmin_r 0 (height P p)). lra.
    - intros a A. rewrite dist_sym, dist_shift by exact U. unfold above in A. specialize (HB p a). assert (0 <= height P a) by (unfold height; lra).
      unfold Rmin. destruct (Rle_dec 0 (height P p)); [rewrite Rabs_R0; apply norm_pos|]. rewrite Rabs_left1 by lra. rewrite Rabs_left1 in HB by lra. lra. }
  split. { unfold Plane_IsOnPositiveSide. rewrite SD_R. rsimpl. rewrite Rleb_true. unfold height, above. split; lra. }
  assert (O : Plane_PointOnPlane P = Plane_Project P origin).
  { rewrite Project_R. unfold Plane_PointOnPlane. rewrite vmuls_R. unfold height. replace (dot (pnormal P) origin) with 0 by (unfold dot, origin; cbn; ring). gunf. apply vec_ext; cbn [vx vy vz]; ring. }
  rewrite O. split; [apply (NP origin)|apply NP].
Qed.
Print Assumptions C39_distance.
(** Mirroring, and the matrices for it and for projection. *)
Theorem C39_mirror (P : plane R) (p q : pt) : unitv (pnormal P) ->
  Plane_Mirror P (Plane_Mirror P p) = p /\ Plane_SignedDistance P (Plane_Mirror P p) = - Plane_SignedDistance P p /\
  Plane_Project P (Plane_Mirror P p) = Plane_Project P p /\ dist (Plane_Mirror P p) (Plane_Mirror P q) = dist p q /\
  Plane_Mirror P p = apply34 (Plane_MirrorMatrix P) p /\ Plane_Project P p = apply34 (Plane_OrthoProjection P) p.
Proof.
  intros U. assert (M : forall p, Plane_Mirror P p = apply34 (Mirror34 P) p).
  { intros x. destruct P as [n d]. rewrite mirror_apply. unfold Plane_Mirror. cbn [pnormal pd]. toG. rewrite (dot_comm x n). rsimpl. reflexivity. }
  assert (J : forall p, Plane_Project P p = apply34 (OrthographicProjection34 P) p).
  { intros x. destruct P as [n d]. rewrite project_apply. reflexivity. }
  destruct P as [n d]. cbn [pnormal] in U. destruct (C68_plane_matrices n d p U) as (A & B & C & _ & _ & _ & _ & E).
  destruct (C68_plane_matrices n d (apply34 (Mirror34 (Pln n d)) p) U) as (_ & _ & _ & _ & _ & _ & _ & E').
  split; [rewrite !M; exact A|]. split; [rewrite !SD_R, M; unfold height; cbn [pnormal pd]; exact C|].
  split; [rewrite !J, !M, E, E', A; gunf; apply vec_ext; cbn [vx vy vz]; ring|]. split; [rewrite !M; apply B|]. split; [apply M|apply J].
Qed.
Print Assumptions C39_mirror.
Definition w_plane : plane R := Pln (V3 (3 / 5) 0 (4 / 5)) 2.
Example C39_plane_witness : unitv (pnormal w_plane) /\ Plane_SignedDistance w_plane (V3 5 1 0 : pt) = 1 /\ Plane_Mirror w_plane (V3 5 1 0 : pt) = V3 (19 / 5) 1 (-8 / 5).
Proof.
  unfold w_plane, unitv. repeat split; unfold Plane_SignedDistance, Plane_Mirror, Dot, dot, vsub, smulv; cbn; rsimpl; try field. apply vec_ext; cbn; field.
Qed.
(** The parametrisation of a plane is an isometry of R^2 onto it. *)
Theorem C39_point (P : plane R) (o : pt) : unitv (pnormal P) ->
  (forall u v, on_plane P (Plane_PointRef P u v o)) /\ Plane_PointRef P 0 0 o = Plane_Project P o /\
  (forall u v u' v', sqd (Plane_PointRef P u v o) (Plane_PointRef P u' v' o) = (u - u') * (u - u') + (v - v') * (v - v')) /\
  (forall p, on_plane P p -> exists u v, p = Plane_PointRef P u v o) /\
  (forall u v, Plane_Point P u v = Plane_PointRef P u v origin).
Proof.
  intros U. pose proof (C27_perpendicular_basis _ U) as B. unfold Plane_PointRef, Plane_Point. destruct (PerpendicularBasis (pnormal P)) as [b1 b2].
  destruct B as (B1 & B2 & O1 & O2 & O3 & V). unfold orth in *. toG. set (c := Plane_Project P o). assert (C : on_plane P c) by (apply C39_distance; exact U).
  split. { intros u v. unfold on_plane in *. rewrite !dot_plus_r, !dot_scale_r, O1, O2, C. ring. }
  split; [gunf; apply vec_ext; cbn [vx vy vz]; ring|].
  split. { intros u v u' v'. unfold sqd. replace (minus (plus (plus c (scale u b1)) (scale v b2)) (plus (plus c (scale u' b1)) (scale v' b2))) with (plus (scale (u - u') b1) (scale (v - v') b2)) by (gunf; apply vec_ext; cbn [vx vy vz]; ring).
    rewrite !dot_plus_l, !dot_plus_r, !dot_scale_l, !dot_scale_r, (dot_comm b2 b1), O3. unfold unitv in B1, B2. rewrite B1, B2. ring. }
  split. { intros p Hp. exists (dot (minus p c) b1), (dot (minus p c) b2). set (w := minus p c). assert (Hw : dot (pnormal P) w = 0) by (unfold w; rewrite dot_minus_r; unfold on_plane in *; lra).
    set (z := plus (plus (scale (dot w b1) b1) (scale (dot w b2) b2)) (scale (dot w (pnormal P)) (pnormal P))).
    assert (F : forall x, dot z x = dot w x).
    { intros x. unfold z. rewrite !dot_plus_l, !dot_scale_l. assert (F := parseval b1 b2 (pnormal P) w x B1 B2 U O3 ltac:(unfold orth; rewrite dot_comm; exact O1) ltac:(unfold orth; rewrite dot_comm; exact O2)).
      rewrite !(dot_comm _ w) in F. rewrite (dot_comm w b1), (dot_comm w b2), (dot_comm w (pnormal P)) in F |- *. lra. }
    assert (Z : minus w z = origin) by (apply dot_zero; rewrite !dot_minus_l, !F; ring).
    assert (Ez : z = plus (scale (dot w b1) b1) (scale (dot w b2) b2)) by (unfold z; rewrite (dot_comm w (pnormal P)), Hw; generalize (dot w b1), (dot w b2); intros; gunf; apply vec_ext; cbn [vx vy vz]; ring).
    assert (Ew : w = z) by (clearbody w z; injection Z as Z1 Z2 Z3; apply vec_ext; lra).
    transitivity (plus c w); [unfold w; gunf; apply vec_ext; cbn [vx vy vz]; ring|]. rewrite Ew at 1. rewrite Ez. generalize (dot w b1), (dot w b2). clearbody c. clear. intros j k. gunf. apply vec_ext; cbn [vx vy vz]; ring. }
  intros u v. do 2 f_equal. rewrite Project_R. unfold Plane_PointOnPlane. rewrite vmuls_R. unfold height. replace (dot (pnormal P) origin) with 0 by (unfold dot, origin; cbn; ring). clear. gunf. apply vec_ext; cbn [vx vy vz]; ring.
Qed.
Print Assumptions C39_point.

(** Signed distance of a box, segment, line or ray, from its projection to the normal. *)
Definition range_of (n : pt) (A : pt -> Prop) (lo hi : R) : Prop := lo <= hi /\ forall x, lo <= x <= hi <-> exists p, A p /\ dot n p = x.
Lemma range_convex n A lo hi : convex_set A -> (forall p, A p -> lo <= dot n p <= hi) -> (exists p, A p /\ dot n p = lo) -> (exists p, A p /\ dot n p = hi) -> range_of n A lo hi.
Proof.
  intros C B (a & Aa & Ea) (b & Ab & Eb). assert (L : lo <= hi) by (destruct (B a Aa); lra). split; [exact L|]. intros x. split.
  - intros X. destruct (Req_dec lo hi) as [E|E]; [exists a; split; [exact Aa|lra]|]. set (k := (x - lo) / (hi - lo)).
    assert (K : 0 <= k <= 1). { unfold k. assert (0 < / (hi - lo)) by (apply Rinv_0_lt_compat; lra). split; [apply Rmult_le_pos; lra|]. apply Rmult_le_reg_r with (hi - lo); [lra|]. unfold Rdiv. rewrite Rmult_assoc, Rinv_l; lra. }
    exists (plus a (scale k (minus b a))). split; [now apply C|]. rewrite dot_plus_r, dot_scale_r, dot_minus_r, Ea, Eb. unfold k. field. lra.
  - intros (p & Ap & <-). now apply B.
Qed.
Lemma range_signed P A lo hi : unitv (pnormal P) -> range_of (pnormal P) A lo hi -> signed_distance_is P A (Plane_SignedDistanceRange P (lo, hi)).
Proof.
  intros U [L G]. unfold Plane_SignedDistanceRange. rewrite !Abs_R. cbn [fst snd]. rsimpl. set (d := pd P).
  assert (B : forall p, A p -> lo <= dot (pnormal P) p <= hi) by (intros p Ap; apply G; now exists p).
  destruct (proj1 (G lo) ltac:(lra)) as (a & Aa & Ea). destruct (proj1 (G hi) ltac:(lra)) as (b & Ab & Eb). unfold signed_distance_is. fold d.
  destruct (Rleb_spec ((lo - d) * (hi - d)) 0) as [C|C].
  - assert (D : lo <= d <= hi) by (split; apply Rnot_lt_le; intros ?; nra). rewrite Rabs_R0. destruct (proj1 (G d) D) as (c & Ac & Ec).
    split; [|split; split; intros H; try lra; specialize (H c Ac); lra]. apply plane_distance; [exact U| |intros; apply Rabs_pos]. exists c. split; [exact Ac|]. unfold height. fold d. rewrite Ec, Rminus_diag_eq by reflexivity. apply Rabs_R0.
  - destruct (Rle_or_lt lo d) as [D|D].
    + assert (hi < d) by (apply Rnot_le_lt; intros ?; nra). rewrite (Rabs_left (lo - d)), (Rabs_left (hi - d)) by nra. destruct (Rltb_spec (- (lo - d)) (- (hi - d))) as [X|X]; [exfalso; lra|].
      split; [|split; split; intros HH; try lra; try (specialize (HH a Aa); lra); intros q Aq; specialize (B q Aq); lra]. apply plane_distance; [exact U|exists b; split; [exact Ab|unfold height; fold d; now rewrite Eb]|].
      intros p Ap. specialize (B p Ap). unfold height. fold d. rewrite !Rabs_left by lra. lra.
    + rewrite (Rabs_right (lo - d)), (Rabs_right (hi - d)) by lra. destruct (Rltb_spec (lo - d) (hi - d)) as [X|X].
      * split; [|split; split; intros HH; try lra; try (specialize (HH a Aa); lra); intros q Aq; specialize (B q Aq); lra]. apply plane_distance; [exact U|exists a; split; [exact Aa|unfold height; fold d; now rewrite Ea]|].
        intros p Ap. specialize (B p Ap). unfold height. fold d. rewrite !Rabs_right by lra. lra.
      * assert (E : hi = lo) by lra. rewrite E. split; [|split; split; intros HH; try lra; try (specialize (HH a Aa); lra); intros q Aq; specialize (B q Aq); lra]. apply plane_distance; [exact U|exists a; split; [exact Aa|unfold height; fold d; now rewrite Ea]|].
        intros p Ap. specialize (B p Ap). unfold height. fold d. rewrite !Rabs_right by lra. lra.
Qed.
Lemma convex_box b : convex_set (in_box b).
Proof. intros x y k (X1 & X2 & X3) (Y1 & Y2 & Y3) K. unfold in_box. gunf. cbn [vx vy vz]. repeat split; nra. Qed.
Lemma seg_range (s : segment R) (n : pt) : range_of n (on_segment s) (fst (Seg_ProjectToAxis s n)) (snd (Seg_ProjectToAxis s n)).
Proof.
  split; [|intros x; generalize (C75_project_segment s n x); destruct (Seg_ProjectToAxis s n); exact (fun H => H)].
  unfold Seg_ProjectToAxis. rsimpl. destruct (Rltb_spec (Dot n (seg_b s)) (Dot n (seg_a s))); cbn [fst snd]; lra.
Qed.
Theorem C39_signed_distance_objects (P : plane R) (b : aabb R) (s : segment R) (l : line R) (r : ray R) : unitv (pnormal P) -> box_ok b ->
  signed_distance_is P (in_box b) (Plane_SignedDistanceAABB P b) /\ signed_distance_is P (on_segment s) (Plane_SignedDistanceSeg P s) /\
  (IsPerpendicular (ldir l) (pnormal P) (1 / 100000) = false \/ dot (ldir l) (pnormal P) = 0 -> signed_distance_is P (on_line l) (Plane_SignedDistanceLine P l)) /\
  (1 / 10000 < dot (pnormal P) (rdir r) \/ dot (pnormal P) (rdir r) = 0 -> signed_distance_is P (on_ray r) (Plane_SignedDistanceRay P r)).
Proof.
  intros U Ob. split; [|split; [|split]].
  - unfold Plane_SignedDistanceAABB. pose proof (C24_project_to_axis b (pnormal P) Ob) as H. destruct (AABB_ProjectToAxis b (pnormal P)) as [lo hi]. destruct H as (B & A1 & A2).
    apply range_signed; [exact U|]. apply range_convex; [apply convex_box|exact B|exact A1|exact A2].
  - unfold Plane_SignedDistanceSeg. pose proof (seg_range s (pnormal P)) as H. destruct (Seg_ProjectToAxis s (pnormal P)) as [lo hi]. now apply range_signed.
  - unfold Plane_SignedDistanceLine. destruct (C75_project_line l (pnormal P)) as [A B]. intros [N|Z].
    + destruct (A N) as [-> H]. cbn. unfold signed_distance_is. rewrite Rabs_R0. destruct (H (pd P)) as (p & Lp & Ep). split; [|split; split; intros HH; try lra; specialize (HH p Lp); lra].
      apply plane_distance; [exact U| |intros; apply Rabs_pos]. exists p. split; [exact Lp|]. unfold height. rewrite Ep, Rminus_diag_eq by reflexivity. apply Rabs_R0.
    + destruct (B Z) as (c & -> & H). cbn. apply range_signed; [exact U|]. split; [lra|]. intros x. split; [intros X; exists (lpos l); split; [exists 0; now rewrite along_0|]|intros (p & Lp & <-); rewrite (H p Lp); lra].
      rewrite (H (lpos l)) by (exists 0; now rewrite along_0). lra.
  - intros H. pose proof (C75_project_ray r (pnormal P) H) as G. unfold Plane_SignedDistanceRay. unfold Ray_ProjectToAxis in *. toG. rewrite !nlit_R in *. rsimpl. set (o := dot (pnormal P) (rpos r)) in *.
    destruct (Rltb_spec (1 / 10000) (dot (pnormal P) (rdir r))) as [C|C].
    + cbn [Plane_SignedDistanceExt]. rsimpl. assert (B : forall p, on_ray r p -> o <= dot (pnormal P) p) by (intros p Rp; apply (G (dot (pnormal P) p)); now exists p).
      assert (R0 : on_ray r (rpos r)) by (exists 0; split; [lra|now rewrite along_0]).
      unfold signed_distance_is. destruct (Rltb_spec (o - pd P) 0) as [S|S].
      * destruct (proj1 (G (pd P))) as (p & Lp & Ep); [split; [cbn; lra|exact I]|]. rewrite Rabs_R0. split; [|split; split; intros HH; try lra; specialize (HH p Lp); lra].
        apply plane_distance; [exact U| |intros; apply Rabs_pos]. exists p. split; [exact Lp|]. unfold height. rewrite Ep, Rminus_diag_eq by reflexivity. apply Rabs_R0.
      * split; [|split; split; intros HH; try lra; try (specialize (HH _ R0); fold o in HH; lra); intros q Rq; specialize (B q Rq); lra].
        apply plane_distance; [exact U|exists (rpos r); split; [exact R0|reflexivity]|]. intros p Rp. specialize (B p Rp). unfold height. rewrite !Rabs_right by lra. lra.
    + destruct H as [H|H]; [lra|]. rewrite H in *. destruct (Rltb_spec 0 (- (10000 / 1))) as [X|X]; [lra|]. cbn [Plane_SignedDistanceExt]. apply range_signed; [exact U|]. split; [lra|]. exact G.
Qed.
Print Assumptions C39_signed_distance_objects.
Example C39_signed_distance_witness : box_ok (Box (V3 0 0 0 : pt) (V3 1 1 1)) /\ dot (V3 0 1 0) (pnormal w_plane) = 0 /\ 1 / 10000 < dot (pnormal w_plane) (V3 1 0 0).
Proof. unfold box_ok, dot, w_plane. cbn. lra. Qed.
(** For a ray pointing against the normal the projection collapses (C75), and with it the distance. *)
Theorem C39_signed_distance_ray_refuted : exists (P : plane R) (r : ray R), unitv (pnormal P) /\ unitv (rdir r) /\ ~ signed_distance_is P (on_ray r) (Plane_SignedDistanceRay P r).
Proof.
  exists (Pln (V3 1 0 0) 0), (Ry (V3 1 0 0) (V3 (-1) 0 0)). split; [unfold unitv, dot; cbn; ring|]. split; [unfold unitv, dot; cbn; ring|].
  unfold Plane_SignedDistanceRay, Ray_ProjectToAxis. toG. rewrite !nlit_R. unfold dot. cbn [pnormal rpos rdir vx vy vz]. rsimpl. rnum. unfold Plane_SignedDistanceExt, Plane_SignedDistanceRange. rewrite !Abs_R. cbn [fst snd pd]. rsimpl.
  rnum. intros (D & S & _). destruct (Rltb_spec (Rabs (1 * 1 + 0 * 0 + 0 * 0 - 0)) (Rabs (1 * 1 + 0 * 0 + 0 * 0 - 0))) as [X|X]; [lra|].
  assert (H := proj1 S ltac:(lra)). specialize (H (V3 0 0 0)). unfold dot in H. cbn in H. enough (0 < 1 * 0 + 0 * 0 + 0 * 0) by lra. apply H. exists 1. split; [lra|]. unfold along, plus, scale. cbn. apply vec_ext; cbn; ring.
Qed.
Print Assumptions C39_signed_distance_ray_refuted.

(** Unsigned distances to a segment, sphere and capsule. *)
Theorem C39_distance_objects (P : plane R) (s : segment R) (o : sphere R) (c : capsule R) : unitv (pnormal P) -> 0 <= srad o -> 0 <= cap_r c ->
  distance_is (on_plane P) (on_segment s) (Plane_DistanceSeg P s) /\ distance_is (on_plane P) (in_sphere o) (Plane_DistanceSphere P o) /\
  distance_is (on_plane P) (in_capsule c) (Plane_DistanceCapsule P c).
Proof.
  intros U Ro Rc. assert (G : forall s, distance_is (on_plane P) (on_segment s) (Plane_DistanceSeg P s)).
  { clear s. intros s. unfold Plane_DistanceSeg. rewrite !Abs_R, Min_R. change (@Plane_SignedDistance R Num_R) with height. rsimpl. set (x := height P (seg_a s)). set (y := height P (seg_b s)).
    assert (H : forall k, height P (plus (seg_a s) (scale k (minus (seg_b s) (seg_a s)))) = x + k * (y - x)) by (intros; unfold x, y, height; rewrite dot_plus_r, dot_scale_r, dot_minus_r; ring).
    assert (Sa : on_segment s (seg_a s)) by (exists 0; split; [lra|gunf; apply vec_ext; cbn [vx vy vz]; ring]). assert (Sb : on_segment s (seg_b s)) by (exists 1; split; [lra|gunf; apply vec_ext; cbn [vx vy vz]; ring]).
    destruct (Rltb_spec (x * y) 0) as [C|C].
    - apply plane_distance; [exact U| |intros; apply Rabs_pos]. assert (N : x - y <> 0) by nra. set (k := x / (x - y)). assert (K : 0 <= k <= 1).
      { unfold k. split; apply Rnot_lt_le; intros Q; assert (E : x / (x - y) * (x - y) = x) by (field; exact N); nra. }
      eexists. split; [exists k; split; [exact K|reflexivity]|]. rewrite H. unfold k. replace (x + x / (x - y) * (y - x)) with 0 by (field; exact N). apply Rabs_R0.
    - apply plane_distance; [exact U| |].
      + unfold Rmin. destruct (Rle_dec (Rabs x) (Rabs y)); [exists (seg_a s)|exists (seg_b s)]; (split; [assumption|reflexivity]).
      + intros p (k & Hk & ->). rewrite H. unfold Rmin. destruct (Rle_dec (Rabs x) (Rabs y)) as [L|L]; unfold Rabs in *; destruct (Rcase_abs x), (Rcase_abs y), (Rcase_abs (x + k * (y - x))); nra. }
  split; [apply G|]. split.
  - unfold Plane_DistanceSphere. rewrite Max_R. rsimpl. destruct (C39_distance P (spos o) U) as (_ & D & _). apply (fat_ext _ _ _ _ (fat_sphere o)), (distance_fat _ _ _ _ D Ro).
  - unfold Plane_DistanceCapsule. rewrite Max_R. rsimpl. exact (distance_fat _ _ _ _ (G (cap_l c)) Rc).
Qed.
Print Assumptions C39_distance_objects.

(** ** C40: moving planes *)
Theorem C40_transform (P : plane R) (a : mat3 R) (m : mat34 R) (q : quat R) :
  (fst (Inverse3 (Transposed3 a) (nlit 1 1000000)) = true -> forall p, on_plane (Plane_Transform3 P a) (apply a p) <-> on_plane P p) /\
  (fst (Inverse3 (lin34 m) (nlit 1 1000000)) = true -> forall p, on_plane (Plane_Transform34 P m) (apply34 m p) <-> on_plane P p) /\
  (fst (Inverse3 (lin34 m) (nlit 1 1000000)) = true -> forall p, height (Plane_Transform34 P m) (apply34 m p) = height P p) /\
  (forall p, on_plane (Plane_ReverseNormal P) p <-> on_plane P p) /\ (forall p, height (Plane_ReverseNormal P) p = - height P p).
Proof.
  assert (A : fst (Inverse3 (Transposed3 a) (nlit 1 1000000)) = true -> forall p, dot (pnormal (Plane_Transform3 P a)) (apply a p) = dot (pnormal P) p).
  { intros H p. unfold Plane_Transform3. cbn [pnormal]. apply (proj2 (C30_InverseTranspose a a) H). }
  assert (B : fst (Inverse3 (lin34 m) (nlit 1 1000000)) = true -> forall p, height (Plane_Transform34 P m) (apply34 m p) = height P p).
  { intros H p. unfold Plane_Transform34. destruct (Inverse3 (lin34 m) (nlit 1 1000000)) as [ok r] eqn:E. cbn [fst] in H. subst ok.
    assert (E6 : 0 < (nlit 1 1000000 : R)) by (rewrite nlit_R; lra). apply (Inverse3_correct _ _ _ E6) in E. unfold height. cbn [pnormal pd]. toG.
    assert (TL : forall u v, dot (TransformLeft r u) v = dot u (apply r v)) by (intros; unfold TransformLeft, apply; rsimpl; gunf; cbn [vx vy vz]; ring).
    rewrite TL. unfold apply34. assert (AP : forall u v, apply r (plus u v) = plus (apply r u) (apply r v)) by (intros; unfold apply; gunf; apply vec_ext; cbn [vx vy vz]; ring).
    rewrite AP, dot_plus_r. destruct (E p) as [_ ->]. change (mulv r) with (apply r). rsimpl. ring. }
  split; [intros H p; unfold on_plane at 1; rewrite (A H); reflexivity|]. split; [intros H p; rewrite <- !height_zero, (B H); reflexivity|]. split; [exact B|].
  assert (C : forall p, height (Plane_ReverseNormal P) p = - height P p) by (intros p; unfold height, Plane_ReverseNormal; cbn [pnormal pd]; rewrite vneg_R; rsimpl; rewrite dot_scale_l; ring).
  split; [intros p; rewrite <- !height_zero, C; split; lra|exact C].
Qed.
Print Assumptions C40_transform.

(** A rotation turns the normal with the plane (so it stays a unit vector); a quaternion acts as its rotation. *)
Theorem C40_rotation (P : plane R) (a : mat3 R) (q : quat R) (p : pt) :
  (rotation (apply a) -> fst (Inverse3 (Transposed3 a) (nlit 1 1000000)) = true -> Plane_Transform3 P a = Pln (apply a (pnormal P)) (pd P)) /\
  (unitq q -> fst (Inverse3 (Transposed3 (FromQuat q)) (nlit 1 1000000)) = true ->
     (on_plane (Plane_TransformQuat P q) (apply (FromQuat q) p) <-> on_plane P p) /\ Plane_TransformQuat P q = Pln (apply (FromQuat q) (pnormal P)) (pd P)).
Proof.
  assert (G : forall a, rotation (apply a) -> fst (Inverse3 (Transposed3 a) (nlit 1 1000000)) = true -> Plane_Transform3 P a = Pln (apply a (pnormal P)) (pd P)).
  { clear a. intros a [Rd _] H. unfold Plane_Transform3. f_equal. change (mulv (InverseTransposed a) (pnormal P)) with (apply (InverseTransposed a) (pnormal P)).
    assert (D : forall x, dot (minus (apply (InverseTransposed a) (pnormal P)) (apply a (pnormal P))) (apply a x) = 0).
    { intros x. rewrite dot_minus_l, (proj2 (C30_InverseTranspose a a) H), Rd. ring. }
    (* every vector is an image: apply a (Transposed a w) = w *)
    assert (I : inverses (Transposed3 a) (InverseTransposed a)).
    { unfold InverseTransposed, Inverted3. destruct (Inverse3 (Transposed3 a) (nlit 1 1000000)) as [ok i] eqn:E. cbn [fst] in H. subst ok. eapply Inverse3_correct; [|exact E]. rewrite nlit_R. lra. }
    set (w := minus (apply (InverseTransposed a) (pnormal P)) (apply a (pnormal P))) in *.
    assert (T0 : forall x, dot (apply (Transposed3 a) w) x = 0) by (intros x; rewrite transposed_dot; apply D).
    assert (T1 : apply (Transposed3 a) w = origin) by (apply dot_zero, T0). destruct (I w) as [_ I2]. rewrite T1 in I2.
    assert (Z : w = origin) by (rewrite <- I2; unfold apply, origin; gunf; apply vec_ext; cbn [vx vy vz]; ring). unfold w in Z. revert Z.
    generalize (apply (InverseTransposed a) (pnormal P)) (apply a (pnormal P)). clear. intros x y Z. injection Z as Z1 Z2 Z3. apply vec_ext; lra. }
  split; [apply G|]. intros U H. unfold Plane_TransformQuat. split; [apply (proj1 (C40_transform P (FromQuat q) (M34 (FromQuat q) origin) q) H)|apply G; [now apply quat_rotation|exact H]].
Qed.
Print Assumptions C40_rotation.
Lemma inverse_witness : fst (Inverse3 (M3 (V3 2 0 0) (V3 0 1 0) (V3 0 0 (1 / 2 : R))) (nlit 1 1000000)) = true.
Proof.
  unfold Inverse3. set (g := g3 _). assert (X : fst (InverseMatrix 3 g (nlit 1 1000000 : R)) = true); [|destruct (InverseMatrix 3 g (nlit 1 1000000)); cbn in X; subst; reflexivity].
  rewrite fst_InverseMatrix, nlit_R. unfold range. cbn [seq Nat.sub elimCols].
  unfold elimStep, findPivot, addRows, range. cbn. repeat (first [rewrite Rabs_R0|match goal with |- context [Rabs ?x] => rewrite (Rabs_pos_eq x) by lra end|
    match goal with |- context [Rltb ?x ?y] => (rewrite (proj2 (Rltb_true x y)) by lra) || (rewrite (proj2 (Rltb_false x y)) by lra) end]; cbn). reflexivity.
Qed.
Example C40_witness : let a : mat3 R := M3 (V3 2 0 0) (V3 0 1 0) (V3 0 0 (1 / 2)) in fst (Inverse3 a (nlit 1 1000000)) = true /\ Transposed3 a = a.
Proof. split; [apply inverse_witness|reflexivity]. Qed.
(** Finding: Translate subtracts the shift, so the plane moves the opposite way. *)
Theorem C40_translate_actual (P : plane R) (v p : pt) : on_plane (Plane_Translate P v) p <-> on_plane P (plus p v).
Proof. unfold on_plane, Plane_Translate. cbn [pnormal pd]. toG. rsimpl. rewrite dot_plus_r. split; lra. Qed.
Print Assumptions C40_translate_actual.
Theorem C40_translate_refuted : exists (P : plane R) (v p : pt), unitv (pnormal P) /\ on_plane P p /\ ~ on_plane (Plane_Translate P v) (plus p v).
Proof.
  exists (Pln (V3 1 0 0) 0), (V3 1 0 0), (V3 0 0 0). split; [unfold unitv, dot; cbn; ring|]. split; [unfold on_plane, dot; cbn; ring|]. rewrite C40_translate_actual. unfold on_plane, dot, plus. cbn. lra.
Qed.
Print Assumptions C40_translate_refuted.
