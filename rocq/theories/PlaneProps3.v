(** Property C41, continued: vertex lists, two and three planes, circles, nearest points, containment. *)
From Coq Require Import Reals Lra Psatz Bool ZArith List.
From Verif Require Import Num NumR ScalarModel ScalarProofs ScalarProps Vec3Model Vec3Props GeoTypes GeoSpec GeoLemmas AabbSpec AabbModel AabbProps2 MatModel MatSpec MatProofs MatProofs2 MatProps
  LineModel LineSpec LineProofs LineProofs2 LineProps RotModel RotSpec RotProofs PlaneModel PlaneSpec PlaneProps PlaneProps2.
Import ListNotations.
Open Scope R_scope.

(** A polyhedron or frustum, by its vertices: cut exactly when some vertex is strictly below and some is not. *)
Theorem C41_vertices (P : plane R) (vs : list pt) : Plane_IntersectsVertices P vs = true <-> (exists v, In v vs /\ height P v < 0) /\ exists v, In v vs /\ 0 <= height P v.
Proof.
  unfold Plane_IntersectsVertices, Plane_IsOnPositiveSide. change (@Plane_SignedDistance R Num_R) with height. rsimpl. destruct vs as [|v0 vs]; [split; [discriminate|intros ((v & [] & _) & _)]|].
  rewrite existsb_exists. destruct (Rleb_spec 0 (height P v0)) as [H|H]; split.
  - intros (x & I & B). destruct (Rleb_spec 0 (height P x)); [discriminate|]. split; [exists x; split; [now right|lra]|exists v0; split; [now left|lra]].
  - intros [(x & [<-|I] & B) _]; [lra|]. exists x. split; [exact I|]. destruct (Rleb_spec 0 (height P x)); [lra|reflexivity].
  - intros (x & I & B). destruct (Rleb_spec 0 (height P x)); [|discriminate]. split; [exists v0; split; [now left|lra]|exists x; split; [now right|lra]].
  - intros [_ (x & [<-|I] & B)]; [lra|]. exists x. split; [exact I|]. destruct (Rleb_spec 0 (height P x)); [reflexivity|lra].
Qed.
Print Assumptions C41_vertices.
Example C41_vertices_witness : height w_plane (V3 0 0 0) < 0 /\ 0 <= height w_plane (V3 0 0 5).
Proof. unfold height, dot, w_plane. cbn. lra. Qed.

(** ** Two planes *)
(** For vectors seen by two unit normals at cosine c: (1 - |c|) times the part seen is bounded by the two components. *)
Lemma eigen_pos c s a b : c * c + s * s = 1 -> 0 <= c -> (1 - c) * (a * a + b * b) <= a * a + (c * a + s * b) * (c * a + s * b).
Proof.
  intros E C. assert (Q : 0 <= (1 + c) * a * a + 2 * s * a * b + (1 - c) * b * b).
  { apply Rmult_le_reg_l with (1 + c); [lra|]. replace ((1 + c) * ((1 + c) * a * a + 2 * s * a * b + (1 - c) * b * b)) with (((1 + c) * a + s * b) * ((1 + c) * a + s * b) + (1 - c * c - s * s) * b * b) by ring.
    pose proof (Rle_0_sqr ((1 + c) * a + s * b)) as R. unfold Rsqr in R. replace (1 - c * c - s * s) with 0 by lra. lra. }
  pose proof (Rmult_le_pos _ _ C Q). apply Rminus_le. replace ((1 - c) * (a * a + b * b) - (a * a + (c * a + s * b) * (c * a + s * b))) with (- (c * ((1 + c) * a * a + 2 * s * a * b + (1 - c) * b * b)) + (1 - c * c - s * s) * (b * b)) by ring.
  replace (1 - c * c - s * s) with 0 by lra. lra.
Qed.
Lemma eigen c s a b : c * c + s * s = 1 -> (1 - Rabs c) * (a * a + b * b) <= a * a + (c * a + s * b) * (c * a + s * b).
Proof.
  intros E. destruct (Rle_or_lt 0 c) as [C|C]; [rewrite Rabs_pos_eq by exact C; now apply eigen_pos|]. rewrite Rabs_left by exact C.
  replace ((c * a + s * b) * (c * a + s * b)) with (((- c) * a + (- s) * b) * ((- c) * a + (- s) * b)) by ring. apply eigen_pos; lra.
Qed.
Lemma basis_of (m p : pt) : unitv m -> unitv p -> orth m p -> unitv (Cross p m) /\ orth p (Cross p m) /\ orth m (Cross p m).
Proof.
  intros M U O. destruct (C26_dot_cross p m m) as (A & B & C & _). unfold unitv, orth in *. rewrite (dot_comm m p) in O. rewrite M, U, O in C. rewrite <- norm_sq. split; [lra|]. split; assumption.
Qed.
Lemma two_normals (m n p y : pt) : unitv m -> unitv n -> unitv p -> orth m p -> orth n p ->
  (1 - Rabs (dot m n)) * (dot y y - dot p y * dot p y) <= dot m y * dot m y + dot n y * dot n y.
Proof.
  intros M N U A B. destruct (basis_of m p M U A) as (Q & O1 & O2). set (q := Cross p m) in *. clearbody q.
  assert (PV : forall a b, dot p a * dot p b + dot m a * dot m b + dot q a * dot q b = dot a b) by (intros; apply parseval; try assumption; unfold orth in *; now rewrite dot_comm).
  pose proof (PV y y) as Y. pose proof (PV n y) as NY. pose proof (PV n n) as NN. unfold unitv, orth in *. rewrite (dot_comm p n), B in NY, NN. rewrite N in NN. rewrite <- NY.
  replace (dot y y - dot p y * dot p y) with (dot m y * dot m y + dot q y * dot q y) by lra. rewrite Rmult_0_l, Rplus_0_l. apply eigen. lra.
Qed.
(** Away from parallel (the angle's cosine 3e-6 below 1) the line found is exactly the intersection. *)
Definition crossing (P o : plane R) : Prop := unitv (pnormal P) /\ unitv (pnormal o) /\ Rabs (dot (pnormal P) (pnormal o)) < 1 - 3 / 1000000.
Lemma crossing_perp P o : crossing P o -> let perp := Perpendicular (pnormal P) (pnormal o) (V3 0 0 1) in unitv perp /\ orth (pnormal P) perp /\ orth (pnormal o) perp.
Proof.
  intros (M & N & C) perp. apply (proj1 (C27_perpendicular (pnormal P) (pnormal o) (V3 0 0 1))). apply Rnot_le_lt. intros L. apply norm_sq_le in L; [|lra].
  destruct (C26_dot_cross (pnormal P) (pnormal o) (pnormal o)) as (_ & _ & G & _). unfold unitv in M, N. rewrite M, N, norm_sq in G.
  set (c := dot (pnormal P) (pnormal o)) in *. assert (c * c < 1 - 3 / 1000000). { pose proof (Rabs_pos c). rewrite <- (Rabs_mult_self c) || (replace (c * c) with (Rabs c * Rabs c) by (unfold Rabs; destruct Rcase_abs; ring)). nra. }
  lra.
Qed.
Lemma planes_solved P o x : crossing P o -> let perp := Perpendicular (pnormal P) (pnormal o) (V3 0 0 1) in
  SolveAxb (M3 (pnormal P) (pnormal o) perp) (V3 (pd P) (pd o) 0) = Some x -> forall p, on_line (Ln x perp) p <-> on_plane P p /\ on_plane o p.
Proof.
  intros C perp S. destruct (crossing_perp P o C) as (U & A & B). fold perp in U, A, B. clearbody perp. destruct C as (M & N & _).
  pose proof (C31_SolveAxb _ _ _ S) as X. unfold apply in X. cbn [row0 row1 row2] in X. pose proof (proj2 (X x) eq_refl) as E. injection E as E1 E2 E3.
  unfold unitv, orth in *. intros p. split.
  - intros (t & ->). unfold on_plane, along. cbn [lpos ldir]. rewrite !dot_plus_r, !dot_scale_r, A, B. split; lra.
  - intros [H1 H2]. exists (dot perp p). assert (Q : minus p (scale (dot perp p) perp) = x).
    { apply X. unfold on_plane in *. rewrite !dot_minus_r, !dot_scale_r, A, B, H1, H2, U. apply vec_ext; cbn [vx vy vz]; ring. }
    cbn [lpos ldir]. rewrite <- Q. gunf. apply vec_ext; cbn [vx vy vz]; ring.
Qed.
Lemma planes_found P o : crossing P o -> SolveAxb (M3 (pnormal P) (pnormal o) (Perpendicular (pnormal P) (pnormal o) (V3 0 0 1))) (V3 (pd P) (pd o) 0) <> None.
Proof.
  intros C S. destruct (crossing_perp P o C) as (U & A & B). set (perp := Perpendicular _ _ _) in *. clearbody perp. destruct C as (M & N & C).
  destruct (C31_SolveAxb_complete _ _ S) as (y & L & H1 & H2 & H3). unfold apply in H1, H2, H3. cbn [vx vy vz row0 row1 row2] in *.
  pose proof (two_normals _ _ _ y M N U A B) as T. assert (L1 : 1 <= dot y y) by (rewrite <- norm_sq; nra).
  assert (SQ : forall z, Rabs z < 1 / 1000 -> z * z < 1 / 1000000). { intros z Z. apply Rabs_def2 in Z. nra. }
  apply SQ in H1, H2, H3. set (k := 1 - Rabs (dot (pnormal P) (pnormal o))) in *. assert (3 / 1000000 < k) by (unfold k; lra). clearbody k.
  set (w := dot y y - dot perp y * dot perp y) in *. assert (1 - 1 / 1000000 < w) by (unfold w; lra). clearbody w. nra.
Qed.
Lemma Perp_hint (P o : plane R) : V3 (n0 : R) n0 n1 = V3 0 0 1.
Proof. apply vec_ext; cbn; lra. Qed.
Theorem C41_two_planes (P o : plane R) : crossing P o -> exists l, Plane_IntersectsPlane P o = Some l /\ unitv (ldir l) /\ forall p, on_line l p <-> on_plane P p /\ on_plane o p.
Proof.
  intros C. unfold Plane_IntersectsPlane. rewrite (Perp_hint P o). change (V3 (pd P) (pd o) n0) with (V3 (pd P) (pd o) 0). destruct (crossing_perp P o C) as (U & _ & _).
  destruct (SolveAxb _ _) as [x|] eqn:S; [|now apply planes_found in S]. exists (Ln x (Normalized (Perpendicular (pnormal P) (pnormal o) (V3 0 0 1)))).
  assert (E : Normalized (Perpendicular (pnormal P) (pnormal o) (V3 0 0 1)) = Perpendicular (pnormal P) (pnormal o) (V3 0 0 1)).
  { rewrite Normalized_R; rewrite (unit_norm1 _ U); [|lra]. rewrite Rinv_1. gunf. apply vec_ext; cbn [vx vy vz]; ring. }
  rewrite E. split; [reflexivity|]. split; [exact U|]. now apply planes_solved.
Qed.
Print Assumptions C41_two_planes.
(** Exactly parallel: reported as meeting iff the planes are less than 1e-3 apart; the line then starts on the first plane. *)
Lemma SolveAxb_singular (n p b : pt) k x : unitv n -> SolveAxb (M3 n (scale k n) p) b = Some x -> False.
Proof.
  intros U S. pose proof (C31_SolveAxb _ _ _ S) as X. unfold apply in X. cbn [row0 row1 row2] in X. pose proof (proj2 (X x) eq_refl) as E.
  (* a vector orthogonal to n and p, or to n when p is along n *)
  assert (Z : exists z, z <> origin /\ dot n z = 0 /\ dot p z = 0).
  { destruct (pt_dec (Cross n p) origin) as [Z|Z].
    - exists (fst (PerpendicularBasis n)). pose proof (C27_perpendicular_basis n U) as B. destruct (PerpendicularBasis n) as [u v]. cbn [fst]. destruct B as (Uu & Uv & O1 & O2 & O3 & _). unfold unitv, orth in *. split; [intros ->; unfold dot, origin in Uu; cbn in Uu; lra|]. split; [exact O1|].
      pose proof (parseval n u v p u U Uu Uv O1 O2 O3) as PV.
      assert (Pn : p = scale (dot n p) n). { destruct (C26_dot_cross n p p) as (_ & _ & G & _). rewrite Z in G. replace (norm origin) with 0 in G by (symmetry; now apply norm_zero). unfold unitv in U.
        assert (D : dot (minus p (scale (dot n p) n)) (minus p (scale (dot n p) n)) = 0) by (rewrite dot_minus_l, !dot_minus_r, !dot_scale_r, !dot_scale_l, (dot_comm p n), U; rewrite U in G; lra).
        apply dot_zero in D. apply vec_ext; [apply (f_equal vx) in D|apply (f_equal vy) in D|apply (f_equal vz) in D]; unfold minus, origin in D; cbn [vx vy vz] in D; lra. }
      rewrite Pn, dot_scale_l, O1. ring.
    - exists (Cross n p). destruct (C26_dot_cross n p p) as (A & B & _). unfold orth in *. split; [exact Z|]. split; [exact A|exact B]. }
  destruct Z as (z & Z & Z1 & Z2). apply Z. assert (Q : plus x z = x).
  { apply X. rewrite !dot_plus_r, !dot_scale_l, Z1, Z2, Rmult_0_r, !Rplus_0_r. rewrite dot_scale_l in E. exact E. }
  apply vec_ext; [apply (f_equal vx) in Q|apply (f_equal vy) in Q|apply (f_equal vz) in Q]; unfold plus, origin in *; cbn [vx vy vz] in *; lra.
Qed.
Theorem C41_parallel_planes (P o : plane R) (k : R) : unitv (pnormal P) -> (k = 1 \/ k = -1) -> pnormal o = scale k (pnormal P) ->
  (Plane_IntersectsPlane P o <> None <-> forall p, on_plane o p -> Rabs (height P p) < 1 / 1000) /\
  (forall l, Plane_IntersectsPlane P o = Some l -> on_plane P (lpos l) /\ unitv (ldir l) /\ Rabs (dot (pnormal P) (ldir l)) <= 1 / 1000000).
Proof.
  intros U K E. unfold Plane_IntersectsPlane, EqualAbs. rewrite !Abs_R, (Perp_hint P o). change (V3 (pd P) (pd o) n0) with (V3 (pd P) (pd o) 0). rewrite E. toG.
  destruct (SolveAxb _ _) as [x|] eqn:S; [exfalso; exact (SolveAxb_singular _ _ _ _ _ U S)|]. clear S. rsimpl. rewrite dot_scale_r. unfold unitv in U. rewrite U, Rmult_1_r.
  assert (HO : forall p, on_plane o p -> height P p = k * pd o - pd P). { intros p H. unfold on_plane in H. rewrite E, dot_scale_l in H. unfold height. destruct K as [->| ->]; lra. }
  assert (Ex : exists p, on_plane o p). { exists (scale (pd o) (pnormal o)). unfold on_plane. rewrite dot_scale_r, E, dot_scale_l, dot_scale_r, U. destruct K as [->| ->]; ring. }
  assert (B : (Rltb 0 k && Rltb (Rabs (pd P - pd o)) (1 / 1000) || Rltb k 0 && Rltb (Rabs (pd P - - pd o)) (1 / 1000)) = Rltb (Rabs (k * pd o - pd P)) (1 / 1000)).
  { destruct K as [->| ->].
    - rewrite (proj2 (Rltb_true 0 1)), (proj2 (Rltb_false 1 0)) by lra. cbn [andb orb]. rewrite orb_false_r, Rmult_1_l, Rabs_minus_sym. reflexivity.
    - rewrite (proj2 (Rltb_true (-1) 0)), (proj2 (Rltb_false 0 (-1))) by lra. cbn [andb orb]. f_equal. rewrite <- Rabs_Ropp. f_equal. ring. }
  rewrite B. split.
  - split.
    + intros H p Hp. rewrite (HO p Hp). destruct (Rltb_spec (Rabs (k * pd o - pd P)) (1 / 1000)); [assumption|now contradiction H].
    + intros H. destruct Ex as (p & Hp). specialize (H p Hp). rewrite (HO p Hp) in H. rewrite (proj2 (Rltb_true _ _) H). discriminate.
  - intros l. destruct (Rltb (Rabs (k * pd o - pd P)) (1 / 1000)); intros L; [|discriminate L]. injection L as <-. cbn [lpos ldir]. rewrite vmuls_R. split; [unfold on_plane; rewrite dot_scale_r, U; ring|].
    destruct (C27_perpendicular_default (scale k (pnormal P))) as [A C]. change (V3 (n0 : R) n1 n0) with (unitY : pt). change (V3 (n0 : R) n0 n1) with (unitZ : pt). split; [exact A|]. rewrite dot_scale_l, Rabs_mult in C.
    replace (Rabs k) with 1 in C by (destruct K as [->| ->]; unfold Rabs; destruct Rcase_abs; lra). rewrite Rmult_1_l in C. exact C.
Qed.
Print Assumptions C41_parallel_planes.
Example C41_two_planes_witness : crossing w_plane (Pln (V3 0 1 0) 7) /\ unitv (pnormal w_plane) /\ pnormal (Pln (V3 (-3 / 5) 0 (-4 / 5)) (-2)) = scale (-1) (pnormal w_plane).
Proof. unfold crossing, w_plane, unitv, dot, scale. cbn. split; [|split; [lra|apply vec_ext; cbn; lra]]. split; [lra|]. split; [lra|]. replace (_ + _) with 0 by ring. rewrite Rabs_R0. lra. Qed.

(** ** Three planes *)
Definition nearly_same_normal (P o : plane R) : Prop := vEquals (pnormal P) (pnormal o) (1 / 1000) = true.
(** No two normals equal: a reported point is the only common point, and none is reported only when the normals are nearly coplanar. *)
Theorem C41_three_planes (P o1 o2 : plane R) : ~ nearly_same_normal P o1 -> ~ nearly_same_normal P o2 -> ~ nearly_same_normal o1 o2 ->
  (forall x, Plane_IntersectsPlanes P o1 o2 = Some x -> forall p, on_plane P p /\ on_plane o1 p /\ on_plane o2 p <-> p = x) /\
  (Plane_IntersectsPlanes P o1 o2 = None -> exists y, 1 <= norm y /\ forall Q, Q = P \/ Q = o1 \/ Q = o2 -> Rabs (dot (pnormal Q) y) < 1 / 1000).
Proof.
  unfold nearly_same_normal, Plane_IntersectsPlanes, Plane_IsParallel. intros A B C. rewrite nlit_R in *. apply not_true_is_false in A, B, C. change (IZR 1 / IZR (Z.pos 1000)) with (1 / 1000). rewrite A, B, C. cbn [orb]. split.
  - intros x S p. pose proof (C31_SolveAxb _ _ _ S p) as X. rewrite <- X. unfold apply, on_plane. cbn [row0 row1 row2]. split; [intros (-> & -> & ->); reflexivity|]. intros E. injection E as E1 E2 E3. tauto.
  - intros S. destruct (C31_SolveAxb_complete _ _ S) as (y & L & H1 & H2 & H3). exists y. split; [exact L|]. unfold apply in *. cbn [vx vy vz row0 row1 row2] in *. intros Q [->|[->| ->]]; assumption.
Qed.
Print Assumptions C41_three_planes.
(** The parallel cases accept a pair of distinct parallel planes when the third one's offset happens to match. *)
Theorem C41_three_planes_parallel_refuted : exists P o1 o2 : plane R, unitv (pnormal P) /\ unitv (pnormal o1) /\ unitv (pnormal o2) /\
  Plane_IntersectsPlanes P o1 o2 <> None /\ ~ exists p, on_plane P p /\ on_plane o1 p.
Proof.
  exists (Pln (V3 1 0 0) 0), (Pln (V3 1 0 0) 5), (Pln (V3 0 1 0) 0). split; [|split; [|split; [|split]]]; [unfold unitv, dot; cbn; lra..| |].
  - unfold Plane_IntersectsPlanes, Plane_IsParallel. cbn [pnormal pd]. rewrite nlit_R, vEquals_same by lra. cbn [orb].
    destruct (C41_two_planes (Pln (V3 1 0 0) 5) (Pln (V3 0 1 0) 0)) as (l & E & _). { unfold crossing, unitv, dot. cbn. split; [lra|]. split; [lra|]. replace (_ + _) with 0 by ring. rewrite Rabs_R0. lra. }
    rewrite E. unfold EqualAbs. rewrite !Abs_R. rsimpl. replace (0 - 0) with 0 by ring. rewrite Rabs_R0. rewrite (proj2 (Rltb_true 0 (1 / 1000))) by lra. rewrite orb_true_r. discriminate.
  - intros (p & A & B). unfold on_plane in *. cbn [pnormal pd] in *. lra.
Qed.
Print Assumptions C41_three_planes_parallel_refuted.
Example C41_three_planes_witness : let P := Pln (V3 1 0 0) 1 : plane R in let o1 := Pln (V3 0 1 0) 2 in let o2 := Pln (V3 0 0 1) 3 in
  ~ nearly_same_normal P o1 /\ ~ nearly_same_normal P o2 /\ ~ nearly_same_normal o1 o2.
Proof.
  unfold nearly_same_normal, vEquals. cbn [pnormal vx vy vz]. rewrite !Abs_R. rsimpl.
  assert (A : Rltb (Rabs (1 - 0)) (1 / 1000) = false) by (apply Rltb_false; rewrite Rabs_right; lra). assert (B : Rltb (Rabs (0 - 1)) (1 / 1000) = false) by (apply Rltb_false; rewrite Rabs_left; lra).
  rewrite A, B. rewrite !andb_false_r. repeat split; discriminate.
Qed.

(** ** A circle *)
Lemma line_dist2 (c p u : pt) t : unitv u -> dist c (plus c (along (minus p c) u t)) * dist c (plus c (along (minus p c) u t)) = t * t + 2 * dot (minus p c) u * t + dot (minus p c) (minus p c).
Proof.
  intros U. unfold dist. rewrite norm_sq. set (w := minus p c).
  replace (minus c (plus c (along w u t))) with (scale (-1) (along w u t)) by (gunf; apply vec_ext; cbn [vx vy vz]; ring). rewrite dot_scale_l, dot_scale_r. unfold along. rewrite dot_plus_l, !dot_plus_r, !dot_scale_l, !dot_scale_r, (dot_comm u w). unfold unitv in U. rewrite U. ring.
Qed.
Lemma sq_eq_pos a b : 0 <= a -> 0 <= b -> (a = b <-> a * a = b * b).
Proof. intros A B. split; [intros ->; reflexivity|]. intros E. destruct (Rlt_or_le a b); [nra|]. destruct (Rlt_or_le b a); nra. Qed.
Theorem C41_circle (P : plane R) (c : circle R) : 0 <= circ_r c -> crossing P (Circle_ContainingPlane c) ->
  match Plane_IntersectsCircle P c with
  | [] => forall p, ~ (on_circle c p /\ on_plane P p)
  | [q] => on_plane P q /\ dot (circ_normal c) (minus q (circ_pos c)) = 0 /\ Rabs (dist (circ_pos c) q * dist (circ_pos c) q - circ_r c * circ_r c) <= 1 / 4000000 /\
           forall p, on_circle c p -> on_plane P p -> dist p q <= 1 / 2000
  | q1 :: q2 :: _ => q1 <> q2 /\ forall p, (on_circle c p /\ on_plane P p <-> p = q1 \/ p = q2)
  end.
Proof.
  intros Rp C. unfold Plane_IntersectsCircle. destruct (C41_two_planes _ _ C) as (l & -> & U & L). set (k := circ_pos c) in *. set (r := circ_r c) in *.
  cbn [lpos ldir]. unfold Line_GetPoint. cbn [lpos ldir]. toG. change (LengthSq (minus (lpos l) k)) with (dot (minus (lpos l) k) (minus (lpos l) k)).
  set (w := minus (lpos l) k). set (u := ldir l) in *. change (@n1 R _) with 1. change (@n2 R _) with 2. 
  assert (F : forall t, plus k (along w u t) = along (lpos l) u t) by (intros; unfold w; gunf; apply vec_ext; cbn [vx vy vz]; ring).
  assert (CP : forall p, on_plane (Circle_ContainingPlane c) p <-> dot (circ_normal c) (minus p k) = 0).
  { intros p. unfold on_plane, Circle_ContainingPlane, Plane_Set. cbn [pnormal pd]. toG. rewrite dot_minus_r, (dot_comm (circ_pos c)). fold k. split; lra. }
  assert (Q : forall t, 1 * t * t + 2 * dot w u * t + (dot w w - r * r) = dist k (plus k (along w u t)) * dist k (plus k (along w u t)) - r * r) by (intros; unfold w; rewrite line_dist2 by exact U; ring).
  assert (ON : forall p, on_circle c p /\ on_plane P p <-> exists t, p = plus k (along w u t) /\ 1 * t * t + 2 * dot w u * t + (dot w w - r * r) = 0).
  { intros p. unfold on_circle. fold k r. rewrite <- CP. split.
    - intros [[A B] D]. destruct (proj2 (L p) (conj D A)) as (t & E). exists t. rewrite F. split; [exact E|]. rewrite Q, F. fold u in E. rewrite <- E, B. ring.
    - intros (t & E & Z). rewrite Q, <- E in Z. assert (D : on_line l p) by (exists t; rewrite E; apply F). apply L in D. destruct D as [D1 D2]. split; [|exact D1]. split; [exact D2|]. apply sq_eq_pos; [apply norm_pos|exact Rp|lra]. }
  clearbody w.
  destruct (C18_outcomes 1 (2 * dot w u) (dot w w - r * r)) as [E|[(x & E)|(x & y & E)]].
  - rsimpl. rewrite E. intros p H. apply ON in H. destruct H as (t & _ & Z). revert Z. now apply C18_no_roots.
  - rsimpl. rewrite E. destruct (C18_one_root 1 _ _ _ ltac:(lra) E) as [A B]. rewrite Rabs_R1 in A, B. rewrite Q in A. change (plus w (scale x u)) with (along w u x).
    assert (D : on_line l (plus k (along w u x))) by (exists x; apply F). apply L in D. destruct D as [D1 D2]. rewrite CP in D2. split; [exact D1|]. split; [exact D2|]. split; [lra|].
    intros p H1 H2. destruct (proj1 (ON p) (conj H1 H2)) as (t & -> & Z). apply B in Z.
    unfold dist. replace (minus (plus k (along w u t)) (plus k (along w u x))) with (scale (t - x) u) by (gunf; apply vec_ext; cbn [vx vy vz]; ring). rewrite norm_scale, (unit_norm1 u U). lra.
  - rsimpl. rewrite E. destruct (C18_two_roots 1 _ _ _ _ ltac:(lra) E) as [N A]. change (plus w (scale x u)) with (along w u x). change (plus w (scale y u)) with (along w u y). split.
    + intros H. apply N. assert (Z : scale (x - y) u = origin). { apply (f_equal (fun z => minus z (plus k (along w u y)))) in H. revert H. clear. intros H. replace (scale (x - y) u) with (minus (plus k (along w u x)) (plus k (along w u y))); [rewrite H|]; gunf; apply vec_ext; cbn [vx vy vz]; ring. }
      assert (D : dot (scale (x - y) u) u = 0) by (rewrite Z; unfold dot, origin; cbn; ring). rewrite dot_scale_l in D. unfold unitv in U. rewrite U in D. lra.
    + intros p. rewrite ON. split.
      * intros (t & -> & Z). apply A in Z. destruct Z as [->| ->]; [now left|now right].
      * intros [->| ->]; [exists x|exists y]; (split; [reflexivity|apply A; auto]).
Qed.
Print Assumptions C41_circle.
Example C41_circle_witness : crossing w_plane (Circle_ContainingPlane (Circ (V3 1 2 3) (V3 0 1 0) 5)).
Proof. unfold crossing, Circle_ContainingPlane, Plane_Set, w_plane, unitv, dot. cbn. split; [lra|]. split; [lra|]. replace (_ + _) with 0 by ring. rewrite Rabs_R0. lra. Qed.

(** ** Nearest point of the plane to a ray or segment *)
Lemma nearest_proj P (A : pt -> Prop) q : unitv (pnormal P) -> A q -> (forall p, A p -> Rabs (height P q) <= Rabs (height P p)) -> nearest_pair (on_plane P) A (Plane_Project P q) q.
Proof.
  intros U Aq M. rewrite Project_R. split; [|split; [exact Aq|]].
  - apply height_zero. rewrite height_sub by exact U. ring.
  - intros a p Ha Hp. rewrite dist_sym, dist_shift by exact U. eapply Rle_trans; [apply (M p Hp)|]. now apply height_dist.
Qed.
Lemma height_along P p u t : height P (along p u t) = height P p + t * dot (pnormal P) u.
Proof. unfold height, along. rewrite dot_plus_r, dot_scale_r. ring. Qed.
(** Parallel, pointing away, or meeting the plane before 1e6: the result is a nearest point of the plane. *)
Theorem C41_closest_ray (P : plane R) (r : ray R) : unitv (pnormal P) ->
  let c := dot (pnormal P) (rdir r) in let t := - height P (rpos r) / c in (c = 0 \/ t < 1000000) ->
  exists q, nearest_pair (on_plane P) (on_ray r) (Plane_ClosestPointRay P r) q.
Proof.
  intros U c t H. unfold Plane_ClosestPointRay. toG. fold c. rsimpl. replace ((pd P - dot (pnormal P) (rpos r)) / c) with t by (unfold t, height; unfold Rdiv; ring).
  assert (R0 : on_ray r (rpos r)) by (exists 0; split; [lra|now rewrite along_0]).
  destruct (Reqb_spec c 0) as [Z|Z].
  - exists (rpos r). apply nearest_proj; [exact U|exact R0|]. intros p (k & K & ->). rewrite height_along. fold c. rewrite Z, Rmult_0_r, Rplus_0_r. lra.
  - destruct H as [H|H]; [contradiction|]. replace (1000000 / 1) with 1000000 by lra. rewrite (proj2 (Rltb_true _ _) H), andb_true_r. destruct (Rleb_spec 0 t) as [T|T].
    + exists (along (rpos r) (rdir r) t). unfold Ray_GetPoint. change (nearest_pair (on_plane P) (on_ray r) (along (rpos r) (rdir r) t) (along (rpos r) (rdir r) t)).
      assert (O : on_plane P (along (rpos r) (rdir r) t)) by (apply height_zero; rewrite height_along; fold c; unfold t; field; exact Z).
      split; [exact O|]. split; [now exists t|]. intros. rewrite (proj2 (dist_zero _ _) eq_refl). apply norm_pos.
    + exists (rpos r). apply nearest_proj; [exact U|exact R0|]. intros p (k & K & ->). rewrite height_along. fold c. unfold t in T. set (h := height P (rpos r)) in *. clearbody h c. clear - T Z K.
      assert (S : 0 < h * c). { assert (h * c = - (- h / c) * (c * c)) by (field; exact Z). assert (0 < c * c) by (apply Rsqr_pos_lt in Z; exact Z). nra. }
      assert (0 <= k * (h * c)) by (apply Rmult_le_pos; lra). apply Rsqr_le_abs_0. unfold Rsqr. nra.
Qed.
Print Assumptions C41_closest_ray.
Lemma seg_ends s : on_segment s (seg_a s) /\ on_segment s (seg_b s).
Proof. split; [exists 0|exists 1]; (split; [lra|gunf; apply vec_ext; cbn [vx vy vz]; ring]). Qed.
Theorem C41_closest_segment (P : plane R) (s : segment R) : unitv (pnormal P) -> 1 / 1000 <= Rabs (dot (pnormal P) (minus (seg_b s) (seg_a s))) ->
  exists q, nearest_pair (on_plane P) (on_segment s) (Plane_ClosestPointSeg P s) q.
Proof.
  intros U C. unfold Plane_ClosestPointSeg, EqualAbs. rewrite !Abs_R. toG. rsimpl. rewrite <- dot_minus_r. fold (sdir s). fold (sdir s) in C. set (c := dot (pnormal P) (sdir s)) in *.
  rewrite Rminus_0_r, (proj2 (Rltb_false _ _) C). assert (Z : c <> 0) by (intros Z; rewrite Z, Rabs_R0 in C; lra).
  set (t := (pd P - dot (pnormal P) (seg_a s)) / c). set (k := Clamp01 t). assert (K : 0 <= k <= 1 /\ (t <= 0 -> k = 0) /\ (1 <= t -> k = 1) /\ (0 <= t <= 1 -> k = t)).
  { unfold k. rewrite Clamp01_R. unfold clamp01. destruct (Rlt_dec t 0), (Rlt_dec 1 t); lra. }
  clearbody k. destruct K as (K & K0 & K1 & Kt).
  assert (G : Seg_GetPoint s k = along (seg_a s) (sdir s) k). { unfold Seg_GetPoint. vunf. unfold sdir. gunf. apply vec_ext; cbn [vx vy vz]; ring. }
  rewrite G. exists (along (seg_a s) (sdir s) k). apply nearest_proj; [exact U|now exists k|]. intros p (j & J & ->). fold (sdir s). change (plus (seg_a s) (scale j (sdir s))) with (along (seg_a s) (sdir s) j). rewrite !height_along. fold c.
  assert (Et : height P (seg_a s) = - t * c) by (unfold t, height; field; exact Z). rewrite Et. replace (- t * c + k * c) with ((k - t) * c) by ring. replace (- t * c + j * c) with ((j - t) * c) by ring. rewrite !Rabs_mult.
  apply Rmult_le_compat_r; [apply Rabs_pos|]. destruct (Rle_or_lt t 0); [rewrite K0 by assumption; rewrite !Rabs_pos_eq; lra|]. destruct (Rle_or_lt 1 t); [rewrite K1 by assumption; rewrite !Rabs_left1; lra|]. rewrite Kt by lra. replace (t - t) with 0 by ring. rewrite Rabs_R0. apply Rabs_pos.
Qed.
Print Assumptions C41_closest_segment.
(** For a segment nearly parallel to the plane, distances to the origin's parallel plane are compared: the farther end can win. *)
Theorem C41_closest_segment_parallel_refuted : exists (P : plane R) (s : segment R), unitv (pnormal P) /\ ~ exists q, nearest_pair (on_plane P) (on_segment s) (Plane_ClosestPointSeg P s) q.
Proof.
  exists (Pln (V3 0 0 1) 10), (Seg (V3 0 0 1) (V3 5 0 (1 + 1 / 2000))). split; [unfold unitv, dot; cbn; lra|]. intros (q & A & (k & K & B) & M).
  assert (E : Plane_ClosestPointSeg (Pln (V3 0 0 1) 10) (Seg (V3 0 0 1) (V3 5 0 (1 + 1 / 2000))) = V3 0 0 10).
  { unfold Plane_ClosestPointSeg, EqualAbs. cbn [pnormal seg_a seg_b]. rewrite !Abs_R. toG. rsimpl. unfold dot. cbn [vx vy vz].
    rewrite (proj2 (Rltb_true (Rabs _) (1 / 1000))) by (rewrite Rabs_right; lra). rewrite (proj2 (Rltb_true (Rabs _) (Rabs _))) by (rewrite !Rabs_right; lra). rewrite Project_R. unfold height, dot, minus, scale. cbn. apply vec_ext; cbn; lra. }
  rewrite E in *. cbn [seg_a seg_b] in B. specialize (M (V3 5 0 10) (V3 5 0 (1 + 1 / 2000))).
  assert (D1 : dist (V3 5 0 10) (V3 5 0 (1 + 1 / 2000)) = 9 - 1 / 2000). { unfold dist, norm, minus, dot. cbn. replace (_ + _) with ((9 - 1 / 2000) * (9 - 1 / 2000)) by lra. apply sqrt_square. lra. }
  rewrite D1 in M. assert (L : dist (V3 0 0 10) q <= 9 - 1 / 2000). { apply M; [unfold on_plane, dot; cbn; lra|]. exists 1. split; [lra|]. unfold plus, scale, minus. cbn. apply vec_ext; cbn; lra. }
  apply norm_sq_le in L; [|lra]. rewrite B in L. unfold minus, plus, scale, dot in L. cbn in L. clear - L K.
  assert (0 <= (10 - (1 + k * (1 + 1 / 2000 - 1))) ) by lra. nra.
Qed.
Print Assumptions C41_closest_segment_parallel_refuted.

(** ** Containment, sides, equality *)
Lemma height_band P (A : pt -> Prop) e x y k : Rabs (height P x) <= e -> Rabs (height P y) <= e -> 0 <= k <= 1 -> Rabs (height P (plus x (scale k (minus y x)))) <= e.
Proof.
  intros X Y K. replace (height P (plus x (scale k (minus y x)))) with ((1 - k) * height P x + k * height P y) by (unfold height; rewrite dot_plus_r, dot_scale_r, dot_minus_r; ring).
  revert X Y. generalize (height P x) (height P y). intros a b X Y. assert (A1 : - e <= a <= e) by (revert X; unfold Rabs; destruct Rcase_abs; lra). assert (A2 : - e <= b <= e) by (revert Y; unfold Rabs; destruct Rcase_abs; lra). apply Rabs_le. split; nra.
Qed.
Lemma Contains_R (P : plane R) p e : Plane_Contains P p e = true <-> Rabs (height P p) <= e.
Proof. unfold Plane_Contains, Plane_Distance. rewrite Abs_R, SD_R. rsimpl. apply Rleb_true. Qed.
Lemma tri_bound P t (lo hi : R) : (lo <= height P (tri_a t) <= hi) -> (lo <= height P (tri_b t) <= hi) -> (lo <= height P (tri_c t) <= hi) -> forall p, in_triangle t p -> lo <= height P p <= hi.
Proof.
  intros A B C p (u & v & w & U & V & W & S & ->). rewrite height_tri by exact S. revert A B C. generalize (height P (tri_a t)) (height P (tri_b t)) (height P (tri_c t)). intros x y z [X1 X2] [Y1 Y2] [Z1 Z2].
  pose proof (Rmult_le_compat_l u _ _ U X1). pose proof (Rmult_le_compat_l u _ _ U X2). pose proof (Rmult_le_compat_l v _ _ V Y1). pose proof (Rmult_le_compat_l v _ _ V Y2). pose proof (Rmult_le_compat_l w _ _ W Z1). pose proof (Rmult_le_compat_l w _ _ W Z2).
  assert (u * lo + v * lo + w * lo = lo) by (replace (u * lo + v * lo + w * lo) with ((u + v + w) * lo) by ring; rewrite S; ring). assert (u * hi + v * hi + w * hi = hi) by (replace (u * hi + v * hi + w * hi) with ((u + v + w) * hi) by ring; rewrite S; ring). lra.
Qed.
Lemma tri_ge P t (lo : R) : lo <= height P (tri_a t) -> lo <= height P (tri_b t) -> lo <= height P (tri_c t) -> forall p, in_triangle t p -> lo <= height P p.
Proof.
  intros A B C p I. apply (tri_bound P t lo (Rmax (height P (tri_a t)) (Rmax (height P (tri_b t)) (height P (tri_c t))))); [..|exact I]; (split; [assumption|]); [apply Rmax_l|eapply Rle_trans; [|apply Rmax_r]; apply Rmax_l|eapply Rle_trans; [|apply Rmax_r]; apply Rmax_r].
Qed.
Lemma tri_le P t (hi : R) : height P (tri_a t) <= hi -> height P (tri_b t) <= hi -> height P (tri_c t) <= hi -> forall p, in_triangle t p -> height P p <= hi.
Proof.
  intros A B C p I. apply (tri_bound P t (Rmin (height P (tri_a t)) (Rmin (height P (tri_b t)) (height P (tri_c t)))) hi); [..|exact I]; (split; [|assumption]); [apply Rmin_l|eapply Rle_trans; [apply Rmin_r|]; apply Rmin_l|eapply Rle_trans; [apply Rmin_r|]; apply Rmin_r].
Qed.
Definition within (P : plane R) (e : R) (p : pt) : Prop := exists q, on_plane P q /\ dist q p <= e.
Lemma within_height P e p : unitv (pnormal P) -> (Rabs (height P p) <= e <-> within P e p).
Proof.
  intros U. split.
  - intros H. exists (Plane_Project P p). rewrite Project_R. split; [apply height_zero; rewrite height_sub by exact U; ring|]. now rewrite dist_sym, dist_shift.
  - intros (q & Q & D). eapply Rle_trans; [now apply (height_dist P p q U Q)|exact D].
Qed.
(** Points, segments and triangles: contained exactly when every point of them is within the threshold of the plane. *)
Theorem C41_contains (P : plane R) (p : pt) (s : segment R) (t : triangle R) e : unitv (pnormal P) ->
  (Plane_Contains P p e = true <-> within P e p) /\
  (Plane_ContainsSeg P s e = true <-> forall q, on_segment s q -> within P e q) /\
  (Plane_ContainsTri P t e = true <-> forall q, in_triangle t q -> within P e q).
Proof.
  intros U. assert (W : forall q, within P e q <-> Rabs (height P q) <= e) by (intros; symmetry; now apply within_height). split; [|split].
  - rewrite W. apply Contains_R.
  - unfold Plane_ContainsSeg. rewrite andb_true_iff, !Contains_R. split.
    + intros [A B] q (k & K & ->). apply W. now apply (height_band P (on_segment s)).
    + intros H. destruct (seg_ends s) as [A B]. split; apply W; now apply H.
  - unfold Plane_ContainsTri. rewrite !andb_true_iff, !Contains_R. destruct (tri_corners t) as (A & B & C). split.
    + intros ((HA & HB) & HC) q I. apply W. assert (L : forall z, Rabs z <= e -> - e <= z <= e) by (intros z; unfold Rabs; destruct Rcase_abs; lra). apply L in HA, HB, HC. apply Rabs_le. now apply (tri_bound P t).
    + intros H. split; [split|]; apply W; now apply H.
Qed.
Print Assumptions C41_contains.
(** Lines and rays, with an exactly perpendicular direction ([epsilon] = 0): position within 1e-3 means the whole object is. *)
Theorem C41_contains_line (P : plane R) (l : line R) (r : ray R) : unitv (pnormal P) -> unitv (ldir l) -> unitv (rdir r) ->
  (Plane_ContainsLine P l 0 = true <-> forall q, on_line l q -> within P (1 / 1000) q) /\
  (Plane_ContainsRay P r 0 = true <-> forall q, on_ray r q -> within P (1 / 1000) q).
Proof.
  intros U L D. assert (W : forall q, within P (1 / 1000) q <-> Rabs (height P q) <= 1 / 1000) by (intros; symmetry; now apply within_height).
  assert (G : forall p u, (forall q, (exists t, 0 <= t /\ q = along p u t) -> within P (1 / 1000) q) -> dot u (pnormal P) = 0).
  { intros p u H. destruct (Req_dec (dot (pnormal P) u) 0) as [Z|Z]; [now rewrite dot_comm|exfalso]. set (c := dot (pnormal P) u) in *.
    assert (HH : forall t, 0 <= t -> Rabs (height P p + t * c) <= 1 / 1000) by (intros t T; unfold c; rewrite <- (height_along P p u t); apply W, H; now exists t).
    pose proof (HH 0 ltac:(lra)) as H0. rewrite Rmult_0_l, Rplus_0_r in H0. assert (Pc : 0 < Rabs c) by (now apply Rabs_pos_lt).
    pose proof (HH (1 / Rabs c) ltac:(apply Rmult_le_pos; [lra|apply Rlt_le, Rinv_0_lt_compat; lra])) as H1.
    assert (E : 1 / Rabs c * c = 1 \/ 1 / Rabs c * c = -1). { unfold Rabs. destruct (Rcase_abs c); [right|left]; field; lra. }
    revert H0 H1. destruct E as [-> | ->]; unfold Rabs; repeat destruct Rcase_abs; lra. }
  assert (IP : forall u, IsPerpendicular u (pnormal P) 0 = true <-> dot u (pnormal P) = 0).
  { intros u. unfold IsPerpendicular. toG. rsimpl. rewrite Rleb_true, !Rmult_0_l. split; [|intros ->; lra]. intros H. pose proof (Rle_0_sqr (dot u (pnormal P))) as Q. unfold Rsqr in Q. assert (Z : dot u (pnormal P) * dot u (pnormal P) = 0) by lra. apply Rmult_integral in Z. tauto. }
  unfold Plane_ContainsLine, Plane_ContainsRay. rewrite !andb_true_iff, !Contains_R, !IP, nlit_R. split; split.
  - intros [A B] q (t & ->). apply W. rewrite height_along, (dot_comm (pnormal P)), B, Rmult_0_r, Rplus_0_r. exact A.
  - intros H. split; [apply W, H; exists 0; now rewrite along_0|]. apply (G (lpos l)). intros q (t & _ & ->). apply H. now exists t.
  - intros [A B] q (t & _ & ->). apply W. rewrite height_along, (dot_comm (pnormal P)), B, Rmult_0_r, Rplus_0_r. exact A.
  - intros H. split; [apply W, H; exists 0; split; [lra|now rewrite along_0]|]. apply (G (rpos r)). exact H.
Qed.
Print Assumptions C41_contains_line.
(** A circle accepted as contained: every point of its disc is within epsilon plus 4.5 percent of the radius (or within twice
    epsilon for a tiny one), since the normals may differ by acos(0.999). *)
Theorem C41_contains_circle (P : plane R) (c : circle R) e : unitv (pnormal P) -> unitv (circ_normal c) -> 0 <= circ_r c -> Plane_ContainsCircle P c e = true ->
  forall p, on_disc c p -> within P (Rmax (e + 9 / 200 * circ_r c) (2 * e)) p.
Proof.
  intros U N Rp H p [O D]. apply within_height; [exact U|]. unfold Plane_ContainsCircle, EqualAbs in H. rewrite andb_true_iff, orb_true_iff, Contains_R, !Abs_R in H. toG. rsimpl. rewrite Rltb_true, Rleb_true in H. destruct H as [A B].
  set (k := circ_pos c) in *. set (r := circ_r c) in *. set (n := pnormal P) in *. set (m := circ_normal c) in *. set (v := minus p k) in *.
  assert (Hp : height P p = height P k + dot n v) by (unfold height, v, n; rewrite dot_minus_r; ring). rewrite Hp. eapply Rle_trans; [apply Rabs_triang|].
  assert (Dv : norm v <= r) by (unfold v; fold (dist p k); rewrite dist_sym; exact D). destruct B as [B|B].
  - eapply Rle_trans; [|apply Rmax_l]. apply Rplus_le_compat; [exact A|].
    (* n = c m + rest, rest orthogonal to m with |rest|^2 = 1 - c^2 *)
    set (cs := dot n m) in *. set (w := minus n (scale cs m)). assert (E : dot n v = dot w v) by (unfold w; rewrite dot_minus_l, dot_scale_l, O; ring). rewrite E.
    assert (Cs : cs * cs = Rabs cs * Rabs cs) by (unfold Rabs; destruct Rcase_abs; ring). assert (1 - 1 / 1000 < Rabs cs) by (revert B; unfold Rabs at 1; destruct Rcase_abs; lra).
    assert (Wn : norm w <= 9 / 200). { apply norm_sq_le; [lra|]. unfold w. rewrite dot_minus_l, !dot_minus_r, !dot_scale_r, !dot_scale_l, (dot_comm m n). fold cs. unfold unitv in U, N. fold n in U. fold m in N. rewrite U, N. nra. }
    eapply Rle_trans; [apply cauchy|]. pose proof (norm_pos w). pose proof (norm_pos v). apply Rmult_le_compat; assumption.
  - eapply Rle_trans; [|apply Rmax_r]. assert (Rabs (dot n v) <= e); [|lra]. eapply Rle_trans; [apply cauchy|]. rewrite (unit_norm1 n U). lra.
Qed.
Print Assumptions C41_contains_circle.
(** ExamineSide, with its tolerance of 1e-4; AreOnSameSide; PassesThroughOrigin. *)
Theorem C41_sides (P : plane R) (t : triangle R) (p q : pt) e : unitv (pnormal P) ->
  (Plane_ExamineSide P t = 1%Z <-> forall x, in_triangle t x -> -1 / 10000 <= height P x) /\
  (Plane_ExamineSide P t = (-1)%Z <-> (forall x, in_triangle t x -> height P x <= 1 / 10000) /\ exists x, in_triangle t x /\ height P x < -1 / 10000) /\
  (Plane_ExamineSide P t = 0%Z <-> (exists x, in_triangle t x /\ height P x < -1 / 10000) /\ exists x, in_triangle t x /\ 1 / 10000 < height P x) /\
  (Plane_AreOnSameSide P p q = true <-> (above P p /\ above P q) \/ (below P p /\ below P q) \/ on_plane P p \/ on_plane P q) /\
  (Plane_PassesThroughOrigin P e = true <-> within P e origin) /\
  (forall v, Plane_IsInPositiveDirection P v = true <-> 0 <= dot (pnormal P) v).
Proof.
  intros U. destruct (tri_corners t) as (A & B & C).
  assert (L : forall lo, (lo <= height P (tri_a t) /\ lo <= height P (tri_b t)) /\ lo <= height P (tri_c t) <-> forall x, in_triangle t x -> lo <= height P x).
  { intros lo. split; [intros ((? & ?) & ?) x I; now apply (tri_ge P t)|]. intros H. split; [split|]; now apply H. }
  assert (G : forall hi, (height P (tri_a t) <= hi /\ height P (tri_b t) <= hi) /\ height P (tri_c t) <= hi <-> forall x, in_triangle t x -> height P x <= hi).
  { intros hi. split; [intros ((? & ?) & ?) x I; now apply (tri_le P t)|]. intros H. split; [split|]; now apply H. }
  unfold Plane_ExamineSide. change (@Plane_SignedDistance R Num_R) with height. rsimpl. replace (- (1 / 10000)) with (-1 / 10000) by lra.
  set (b1 := Rleb (-1 / 10000) (height P (tri_a t)) && Rleb (-1 / 10000) (height P (tri_b t)) && Rleb (-1 / 10000) (height P (tri_c t))).
  set (b2 := Rleb (height P (tri_a t)) (1 / 10000) && Rleb (height P (tri_b t)) (1 / 10000) && Rleb (height P (tri_c t)) (1 / 10000)).
  assert (B1 : b1 = true <-> forall x, in_triangle t x -> -1 / 10000 <= height P x) by (unfold b1; rewrite !andb_true_iff, !Rleb_true; apply L).
  assert (B2 : b2 = true <-> forall x, in_triangle t x -> height P x <= 1 / 10000) by (unfold b2; rewrite !andb_true_iff, !Rleb_true; apply G).
  assert (N1 : b1 = false <-> exists x, in_triangle t x /\ height P x < -1 / 10000).
  { split; [|intros (x & I & H); apply not_true_is_false; intros E; pose proof (proj1 B1 E x I); lra]. unfold b1. rewrite !andb_false_iff, !Rleb_false. intros [[H|H]|H]; eauto. }
  assert (N2 : b2 = false <-> exists x, in_triangle t x /\ 1 / 10000 < height P x).
  { split; [|intros (x & I & H); apply not_true_is_false; intros E; pose proof (proj1 B2 E x I); lra]. unfold b2. rewrite !andb_false_iff, !Rleb_false. intros [[H|H]|H]; eauto. }
  rewrite <- B1, <- B2, <- N1, <- N2. clearbody b1 b2. split; [destruct b1, b2; intuition congruence|]. split; [destruct b1, b2; intuition congruence|]. split; [destruct b1, b2; intuition congruence|].
  split; [|split].
  - unfold Plane_AreOnSameSide. change (@Plane_SignedDistance R Num_R) with height. rsimpl. rewrite Rleb_true. unfold above, below, on_plane, height. set (x := dot (pnormal P) p). set (y := dot (pnormal P) q). set (d := pd P). clearbody x y d. split.
    + intros H. destruct (Rtotal_order x d) as [?|[?|?]]; destruct (Rtotal_order y d) as [?|[?|?]]; try lra; nra.
    + intros [[]|[[]|[->| ->]]]; nra.
  - rewrite <- within_height by exact U. unfold Plane_PassesThroughOrigin. rewrite Abs_R. rsimpl. rewrite Rleb_true. replace (height P origin) with (- pd P) by (unfold height, dot, origin; cbn; ring). now rewrite Rabs_Ropp.
  - intros v. unfold Plane_IsInPositiveDirection. toG. rsimpl. apply Rleb_true.
Qed.
Print Assumptions C41_sides.
(** Planes with the same points are set-equal at every positive tolerance, and equal only if the normals agree; set-equal at
    tolerance e means the normals are within 1e-3 in each component (up to a common sign) and the offsets within e. *)
Theorem C41_set_equals (P o : plane R) : unitv (pnormal P) -> unitv (pnormal o) -> (forall p, on_plane P p <-> on_plane o p) ->
  (forall e, 0 < e -> Plane_SetEquals P o e = true) /\ ((forall e, 0 < e -> Plane_Equals P o e = true) <-> pnormal P = pnormal o).
Proof.
  intros U V S. assert (K : (pnormal o = pnormal P /\ pd o = pd P) \/ (pnormal o = scale (-1) (pnormal P) /\ pd o = - pd P)).
  { (* the directions orthogonal to one normal are orthogonal to the other *)
    set (n := pnormal P) in *. set (m := pnormal o) in *. set (x0 := scale (pd P) n).
    assert (X0 : dot m x0 = pd o). { apply S. unfold on_plane, x0. fold n. rewrite dot_scale_r. unfold unitv in U. rewrite U. ring. }
    set (v := minus m (scale (dot n m) n)). assert (Ov : dot n v = 0) by (unfold v; rewrite dot_minus_r, dot_scale_r; unfold unitv in U; rewrite U; ring).
    assert (Xv : dot m (plus x0 v) = pd o). { apply S. unfold on_plane. fold n. rewrite dot_plus_r, Ov, Rplus_0_r. unfold x0. rewrite dot_scale_r. unfold unitv in U. rewrite U. ring. }
    rewrite dot_plus_r, X0 in Xv. assert (Mv : dot m v = 0) by lra. unfold v in Mv. rewrite dot_minus_r, dot_scale_r, (dot_comm m n) in Mv. unfold unitv in V. rewrite V in Mv.
    assert (Q : dot n m = 1 \/ dot n m = -1) by (destruct (Rle_or_lt 0 (dot n m)); [left|right]; nra).
    assert (E : m = scale (dot n m) n) by (apply unit_parallel; [exact U|exact V|destruct Q as [-> | ->]; unfold Rabs; destruct Rcase_abs; lra]).
    assert (Pd : pd o = dot n m * pd P) by (rewrite <- X0; unfold x0; rewrite dot_scale_r, (dot_comm m n); ring). destruct Q as [Q|Q]; rewrite Q in E, Pd; [left|right]; (split; [|lra]); [rewrite E; gunf; apply vec_ext; cbn [vx vy vz]; ring|exact E]. }
  assert (EA : forall a b e : R, 0 < e -> a = b -> EqualAbs a b e = true). { intros a b e E ->. unfold EqualAbs. rewrite Abs_R. rsimpl. replace (b - b) with 0 by ring. rewrite Rabs_R0. now apply Rltb_true. }
  split.
  - intros e E. unfold Plane_SetEquals. apply orb_true_iff. rewrite nlit_R. destruct K as [[Kn Kd]|[Kn Kd]]; rewrite Kn, Kd.
    + left. rewrite vEquals_same, EA by (lra || reflexivity). reflexivity.
    + right. rewrite vneg_R. replace (scale (-1) (scale (-1) (pnormal P))) with (pnormal P) by (gunf; apply vec_ext; cbn [vx vy vz]; ring). rewrite vEquals_same by lra. rewrite EA by (lra || reflexivity). reflexivity.
  - unfold Plane_Equals, Plane_IsParallel. split.
    + intros H. apply vEquals_lim. intros e E. specialize (H e E). apply andb_true_iff in H. tauto.
    + intros H e E. rewrite H, vEquals_same by exact E. cbn [andb]. apply EA; [exact E|]. destruct K as [[_ K]|[K _]]; [now rewrite K|exfalso]. rewrite H in K.
      unfold unitv in V. assert (dot (pnormal o) (pnormal o) = dot (pnormal o) (scale (-1) (pnormal o))) by (f_equal; exact K). rewrite dot_scale_r, V in H0. lra.
Qed.
Print Assumptions C41_set_equals.
(** Planes facing opposite ways are reported as not parallel, at the default tolerance. *)
Theorem C41_parallel_opposite_refuted : exists P o : plane R, (forall p, on_plane P p <-> on_plane o p) /\ unitv (pnormal P) /\ Plane_IsParallel P o (1 / 1000) = false.
Proof.
  exists (Pln (V3 0 0 1) 0), (Pln (V3 0 0 (-1)) 0). split; [|split].
  - intros p. unfold on_plane, dot. cbn. lra.
  - unfold unitv, dot. cbn. lra.
  - unfold Plane_IsParallel, vEquals. cbn [pnormal vx vy vz]. rewrite !Abs_R. rsimpl. rewrite (proj2 (Rltb_false (Rabs (1 - -1)) _)) by (rewrite Rabs_right; lra). apply andb_false_r.
Qed.
Print Assumptions C41_parallel_opposite_refuted.
(** "Returns the angle of intersection in radians": it returns the angle's cosine, 1 for a plane and itself. *)
Theorem C41_dihedral_actual (P o : plane R) : unitv (pnormal P) -> unitv (pnormal o) -> -1 <= Plane_DihedralAngle P o <= 1 /\ cos (acos (Plane_DihedralAngle P o)) = dot (pnormal P) (pnormal o).
Proof.
  intros U V. unfold Plane_DihedralAngle. toG. pose proof (cauchy (pnormal P) (pnormal o)) as C. rewrite (unit_norm1 _ U), (unit_norm1 _ V), Rmult_1_r in C.
  assert (B : -1 <= dot (pnormal P) (pnormal o) <= 1) by (revert C; unfold Rabs; destruct Rcase_abs; lra). split; [exact B|]. now apply cos_acos.
Qed.
Print Assumptions C41_dihedral_actual.
Theorem C41_dihedral_refuted : exists P : plane R, unitv (pnormal P) /\ Plane_DihedralAngle P P <> 0.
Proof. exists (Pln (V3 0 0 1) 0). unfold unitv, Plane_DihedralAngle. toG. unfold dot. cbn. lra. Qed.
Print Assumptions C41_dihedral_refuted.
(** Projecting a segment, triangle or polygon projects its points; a generated circle lies on the plane. *)
Lemma Project_affine P (a b : pt) k : Plane_Project P (plus a (scale k (minus b a))) = plus (Plane_Project P a) (scale k (minus (Plane_Project P b) (Plane_Project P a))).
Proof. rewrite !Project_R. unfold height. rewrite dot_plus_r, dot_scale_r, dot_minus_r. generalize (dot (pnormal P) a) (dot (pnormal P) b). intros x y. gunf. apply vec_ext; cbn [vx vy vz]; ring. Qed.
Theorem C41_project_objects (P : plane R) (s : segment R) (t : triangle R) (vs : list pt) (k : pt) (r : R) : unitv (pnormal P) ->
  (forall q, on_segment (Plane_ProjectSeg P s) q <-> exists p, on_segment s p /\ nearest (on_plane P) p q) /\
  (forall q, in_triangle (Plane_ProjectTri P t) q <-> exists p, in_triangle t p /\ nearest (on_plane P) p q) /\
  Forall2 (fun p q => nearest (on_plane P) p q) vs (Plane_ProjectPolygon P vs) /\
  (forall q, on_disc (Plane_GenerateCircle P k r) q -> on_plane P q).
Proof.
  intros U. assert (NP : forall p q, nearest (on_plane P) p q <-> q = Plane_Project P p).
  { intros p q. destruct (C39_distance P p U) as (_ & _ & N & _). split; [|intros ->; exact N]. intros [Q M]. destruct N as [N1 N2].
    (* q and the projection are equally far: Pythagoras *)
    rewrite Project_R in *. specialize (M _ N1). set (h := height P p) in *. set (z := minus p (scale h (pnormal P))) in *.
    assert (D1 : dist z p * dist z p = h * h) by (unfold z; rewrite dist_sym, dist_shift by exact U; rewrite <- Rabs_mult; apply Rabs_pos_eq; nra).
    assert (D2 : dist q p * dist q p = dist q z * dist q z + h * h).
    { unfold dist. rewrite !norm_sq. assert (E : dot (pnormal P) (minus q z) = 0) by (unfold on_plane in *; rewrite dot_minus_r; lra).
      replace (minus q p) with (minus (minus q z) (scale h (pnormal P))) by (unfold z; gunf; apply vec_ext; cbn [vx vy vz]; ring). set (y := minus q z) in *. clearbody y. rewrite dot_minus_l, !dot_minus_r, !dot_scale_r, !dot_scale_l, (dot_comm y (pnormal P)), E. unfold unitv in U. rewrite U. ring. }
    assert (D3 : dist q p * dist q p <= dist z p * dist z p) by (apply Rmult_le_compat; [apply norm_pos|apply norm_pos|exact M|exact M]).
    apply dist_zero. pose proof (norm_pos (minus q z)). change (norm (minus q z)) with (dist q z) in *. nra. }
  split; [|split; [|split]].
  - intros q. unfold Plane_ProjectSeg. split.
    + intros (j & J & ->). cbn [seg_a seg_b]. rewrite <- Project_affine. eexists. split; [exists j; split; [exact J|reflexivity]|]. now apply NP.
    + intros (p & (j & J & ->) & E). apply NP in E. rewrite E, Project_affine. exists j. now split.
  - assert (PA : forall u v w, u + v + w = 1 -> Plane_Project P (plus (scale u (tri_a t)) (plus (scale v (tri_b t)) (scale w (tri_c t)))) = plus (scale u (Plane_Project P (tri_a t))) (plus (scale v (Plane_Project P (tri_b t))) (scale w (Plane_Project P (tri_c t))))).
    { intros u v w S. rewrite !Project_R, height_tri by exact S. generalize (height P (tri_a t)) (height P (tri_b t)) (height P (tri_c t)). intros x y z. gunf. apply vec_ext; cbn [vx vy vz]; ring. }
    intros q. unfold Plane_ProjectTri, in_triangle. cbn [tri_a tri_b tri_c]. split.
    + intros (u & v & w & A & B & C & S & ->). rewrite <- PA by exact S. eexists. split; [exists u, v, w; repeat split; try assumption; reflexivity|]. now apply NP.
    + intros (p & (u & v & w & A & B & C & S & ->) & E). apply NP in E. rewrite E, PA by exact S. exists u, v, w. now repeat split.
  - unfold Plane_ProjectPolygon. induction vs as [|v vs IH]; [constructor|]. cbn [map]. constructor; [now apply NP|exact IH].
  - intros q [O _]. unfold Plane_GenerateCircle in O. cbn [circ_normal circ_pos] in O. rewrite dot_minus_r in O. destruct (C39_distance P k U) as (_ & _ & [N _] & _). unfold on_plane in *. lra.
Qed.
Print Assumptions C41_project_objects.
Example C41_objects_witness : unitv (pnormal w_plane) /\ on_disc (Plane_GenerateCircle w_plane (V3 1 2 3) 4) (Plane_Project w_plane (V3 1 2 3)).
Proof.
  split; [unfold unitv, w_plane, dot; cbn; lra|]. unfold on_disc, Plane_GenerateCircle. cbn [circ_normal circ_pos circ_r]. rewrite (proj2 (dist_zero _ _) eq_refl). split; [|lra]. set (z := Plane_Project _ _). rewrite dot_minus_r. ring.
Qed.
