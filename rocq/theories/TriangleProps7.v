(** C80: measures, planes, bounds, transforms and sampling of triangles. *)
From Coq Require Import Reals Lra Psatz Bool List Classical.
From Verif Require Import Num NumR ScalarModel ScalarProofs Vec3Model Vec2Model GeoTypes MatModel RotModel GMatProofs GeoSpec GeoLemmas Vec3Props AabbSpec AabbModel LineModel LineSpec LineProofs LineProofs2 LineProps
  MatSpec MatProofs MatProofs2 PlaneModel PlaneSpec PlaneProps PlaneProps2 PlaneProps3 PlaneProps4 TriangleModel TriangleSpec TriangleProps TriangleProps2 SatTheory SatModel SatProps TriangleProps4 TriangleProps5.
Import ListNotations.
Open Scope R_scope.

(** Area: half the length of one side times the height over it. *)
Theorem C80_measures (t : triangle R) : let '(Tri a b c) := t in
  Tri_Centroid t = bary t (1 / 3) (1 / 3) (1 / 3) /\ in_triangle t (Tri_Centroid t) /\
  (forall f, a <> b -> on_line (Ln a (minus b a)) f -> orth (minus c f) (minus b a) -> Tri_Area t = dist a b * dist f c / 2) /\
  Tri_Perimeter t = dist a b + dist b c + dist c a /\
  (forall i, (i < 3)%nat -> exists e p q, Tri_Edge t i = Some e /\ Tri_Vertex t i = Some p /\ Tri_Vertex t (Nat.modulo (i + 1) 3) = Some q /\ e = Seg p q) /\
  (forall p, vertex_of t p <-> exists i, Tri_Vertex t i = Some p) /\ (forall e, edge_of t e <-> exists i, Tri_Edge t i = Some e).
Proof.
  destruct t as [a b c].
  assert (C : Tri_Centroid (Tri a b c) = bary (Tri a b c) (1 / 3) (1 / 3) (1 / 3)) by (apply vec_ext; unfold Tri_Centroid, bary; vunf; gunf; rewrite ?nlit_R; rsimpl; cbn [tri_a tri_b tri_c vx vy vz]; field).
  split; [exact C|]. split; [rewrite C; apply bary_in; lra|]. split; [|split; [reflexivity|split; [|split]]].
  - intros f N (s & ->) O. unfold Tri_Area, Tri_UnnormalizedNormalCCW. cbn [tri_a tri_b tri_c lpos ldir] in *. change (@Cross R Num_R) with cross. change (@vsub R Num_R) with minus. change (@Length R Num_R) with norm.
    replace (@nhalf R _) with (1 / 2) by (unfold nhalf; rewrite nlit_R; lra).
    assert (E : norm (cross (minus b a) (minus c a)) = dist a b * dist (along a (minus b a) s) c); [|rsimpl; rewrite E; field].
    unfold dist, norm. rewrite <- sqrt_mult by apply dot_pos. f_equal. rewrite cross_sq. unfold orth in O. set (x := minus b a) in *.
    assert (E1 : dot (minus a b) (minus a b) = dot x x) by (unfold x; gunf; ring). rewrite E1.
    assert (E2 : minus c (along a x s) = minus (minus c a) (scale s x)) by (apply vec_ext; unfold along; gunf; cbn [vx vy vz]; ring).
    assert (E3 : dot (minus (along a x s) c) (minus (along a x s) c) = dot (minus c (along a x s)) (minus c (along a x s))) by (gunf; ring). rewrite E3. rewrite E2 in *. set (y := minus c a) in *. clearbody x y.
    rewrite !dot_minus_l, !dot_minus_r, !dot_scale_l, !dot_scale_r in *. rewrite (dot_comm y x) in *. set (A := dot x x) in *. set (B := dot x y) in *. assert (B = s * A) by lra. nra.
  - intros [|[|[|i]]] L; [| | |exfalso; Lia.lia]; cbn; do 3 eexists; repeat split; reflexivity.
  - intros p. unfold vertex_of, Tri_Vertex. cbn [tri_a tri_b tri_c]. split; [intros [ -> |[ -> | -> ]]; [exists 0%nat|exists 1%nat|exists 2%nat]; reflexivity|]. intros ([|[|[|i]]] & E); try discriminate E; injection E as <-; tauto.
  - intros p. unfold edge_of, Tri_Edge. cbn [tri_a tri_b tri_c]. split; [intros [ -> |[ -> | -> ]]; [exists 0%nat|exists 1%nat|exists 2%nat]; reflexivity|]. intros ([|[|[|i]]] & E); try discriminate E; injection E as <-; tauto.
Qed.
Print Assumptions C80_measures.

(** Planes and normals: counter-clockwise corners are seen from the positive side. *)
Lemma above_swap t p : above (Tri (tri_a t) (tri_c t) (tri_b t)) p = - above t p.
Proof.
  unfold above. cbn [tri_a tri_b tri_c]. rewrite !vol_nrm. set (x := minus (tri_b t) (tri_a t)). set (y := minus (tri_c t) (tri_a t)).
  assert (E : cross y x = scale (-1) (cross x y)) by (apply vec_ext; unfold cross; gunf; cbn [vx vy vz]; ring). rewrite E, dot_scale_l. unfold norm. rewrite dot_scale_l, dot_scale_r. replace (-1 * (-1 * dot (cross x y) (cross x y))) with (dot (cross x y) (cross x y)) by ring. unfold Rdiv. ring.
Qed.
Lemma proper_swap t : proper_tri t -> proper_tri (Tri (tri_a t) (tri_c t) (tri_b t)).
Proof. intros P u v E. cbn [tri_a tri_b tri_c] in E. destruct (P v u) as [-> ->]; [|easy]. rewrite <- E. apply vec_ext; gunf; cbn [vx vy vz]; ring. Qed.
Theorem C80_planes (t : triangle R) : proper_tri t ->
  (forall p, on_plane (Tri_PlaneCCW t) p <-> in_tri_plane t p) /\ (forall p, on_plane (Tri_PlaneCW t) p <-> in_tri_plane t p) /\
  (forall p, height (Tri_PlaneCCW t) p = above t p) /\ (forall p, height (Tri_PlaneCW t) p = - above t p) /\
  unitv (pnormal (Tri_PlaneCCW t)) /\ pnormal (Tri_PlaneCW t) = scale (-1) (pnormal (Tri_PlaneCCW t)) /\
  0 < volume (minus (tri_b t) (tri_a t)) (minus (tri_c t) (tri_a t)) (pnormal (Tri_PlaneCCW t)) /\
  Tri_UnnormalizedNormalCW t = scale (-1) (Tri_UnnormalizedNormalCCW t) /\
  (eps6 < norm (cross (minus (tri_b t) (tri_a t)) (minus (tri_c t) (tri_a t))) -> Tri_NormalCCW t = pnormal (Tri_PlaneCCW t) /\ Tri_NormalCW t = pnormal (Tri_PlaneCW t)).
Proof.
  intros P. pose proof (proper_swap t P) as PS. set (t' := Tri (tri_a t) (tri_c t) (tri_b t)) in *. assert (EW : Tri_PlaneCW t = Tri_PlaneCCW t') by reflexivity. rewrite EW.
  destruct (plane_R t P) as (U & E & H). destruct (plane_R t' PS) as (U' & E' & H'). pose proof (nrm_pos t P) as L.
  assert (NS : nrm t' = scale (-1) (nrm t)) by (apply vec_ext; unfold nrm, t', cross; gunf; cbn [vx vy vz tri_a tri_b tri_c]; ring).
  assert (NN : norm (nrm t') = norm (nrm t)) by (rewrite NS; unfold norm; rewrite dot_scale_l, dot_scale_r; f_equal; ring).
  assert (PA : forall p, above t p = 0 <-> in_tri_plane t p).
  { intros p. assert (A : above t p = dot (nrm t) (minus p (tri_a t)) / norm (nrm t)) by (unfold above; rewrite vol_nrm; reflexivity). rewrite A. split.
    - intros Z. assert (Q : dot (nrm t) (minus p (tri_a t)) = 0). { apply Rmult_eq_reg_r with (/ norm (nrm t)); [rewrite Rmult_0_l; exact Z|]. apply Rinv_neq_0_compat. lra. }
      apply plane_bary; [exact P|]. rewrite dot_minus_r in Q. lra.
    - intros (u & v & w & S & ->). rewrite <- A. rewrite (above_bary t t u v w P S). rewrite (above_self t (tri_a t)), (above_self t (tri_b t)), (above_self t (tri_c t)); try exact P; try (apply vertex_in; unfold vertex_of; tauto). ring. }
  assert (OP : forall Q p, on_plane Q p <-> height Q p = 0) by (intros Q p; unfold on_plane, height; split; lra).
  split; [intros p; rewrite OP, H; apply PA|]. split; [intros p; rewrite OP, H'; unfold t'; rewrite above_swap, <- PA; split; lra|]. split; [exact H|]. split; [intros p; rewrite H'; apply above_swap|].
  split; [exact U|]. split; [rewrite E', E, NS, <- NN, NS; apply vec_ext; gunf; cbn [vx vy vz]; ring|]. split.
  { rewrite E, vol_nrm. fold (nrm t). rewrite dot_scale_r, <- norm_sq. apply Rmult_lt_0_compat; [now apply Rinv_0_lt_compat|nra]. }
  assert (EU : Tri_UnnormalizedNormalCCW t = nrm t) by reflexivity. assert (EU' : Tri_UnnormalizedNormalCW t = nrm t') by reflexivity. split; [rewrite EU, EU'; exact NS|].
  fold (nrm t). unfold eps6. intros B. unfold Tri_NormalCCW, Tri_NormalCW. rewrite EU, EU', E, E'. split; apply Normalized_R; lra.
Qed.
Print Assumptions C80_planes.

(** The extreme point, the bounding box, the two-dimensional and signed areas. *)
Lemma bary_dot t d u v w : dot d (bary t u v w) = u * dot d (tri_a t) + v * dot d (tri_b t) + w * dot d (tri_c t).
Proof. unfold bary. rewrite !dot_plus_r, !dot_scale_r. ring. Qed.
Theorem C80_extreme (t : triangle R) (d : pt) :
  vertex_of t (Tri_ExtremePoint t d) /\ (forall p, in_triangle t p -> dot d p <= dot d (Tri_ExtremePoint t d)) /\ Tri_ExtremePointDist t d = (Tri_ExtremePoint t d, dot (Tri_ExtremePoint t d) d).
Proof.
  split; [|split; [|reflexivity]].
  - unfold Tri_ExtremePoint. cbn [fold_left]. cbv zeta. change (@Dot R Num_R) with dot. cbn [snd]. unfold vertex_of. rsimpl. repeat (destruct (Rltb _ _); cbn [snd fst]); tauto.
  - intros p (u & v & w & Hu & Hv & Hw & E & ->). change (plus (scale u (tri_a t)) (plus (scale v (tri_b t)) (scale w (tri_c t)))) with (bary t u v w). rewrite bary_dot.
    unfold Tri_ExtremePoint. cbn [fold_left]. cbv zeta. change (@Dot R Num_R) with dot. cbn [snd]. set (x := dot d (tri_a t)) in *. set (y := dot d (tri_b t)) in *. set (z := dot d (tri_c t)) in *.
    rsimpl. destruct (Rltb_spec x y) as [L|L]; cbn [snd fst].
    + destruct (Rltb_spec y z) as [L2|L2]; cbn [snd fst]; fold x y z; nra.
    + destruct (Rltb_spec x z) as [L2|L2]; cbn [snd fst]; fold x y z; nra.
Qed.
Print Assumptions C80_extreme.
Theorem C80_bounds (t : triangle R) : (forall p, in_triangle t p -> in_box (Tri_BoundingAABB t) p) /\
  forall b, (forall p, in_triangle t p -> in_box b p) -> forall p, in_box (Tri_BoundingAABB t) p -> in_box b p.
Proof.
  destruct t as [[ax ay az] [bx by_ bz] [cx cy cz]]. unfold Tri_BoundingAABB, vMin, vMax, in_box. cbn [tri_a tri_b tri_c vx vy vz minPoint maxPoint]. rewrite !Max_R, !Min_R. split.
  - intros p (u & v & w & Hu & Hv & Hw & E & ->). gunf. cbn [tri_a tri_b tri_c vx vy vz].
    assert (B : forall x y z, Rmin (Rmin x y) z <= u * x + (v * y + w * z) <= Rmax (Rmax x y) z) by (intros x y z; unfold Rmin, Rmax; repeat destruct Rle_dec; split; nra). repeat split; apply B.
  - intros [[mx my mz] [Mx My Mz]] H p B. cbn [minPoint maxPoint vx vy vz] in *. pose proof (H _ (vertex_in (Tri (V3 ax ay az) (V3 bx by_ bz) (V3 cx cy cz)) _ (or_introl eq_refl))) as A1. pose proof (H _ (vertex_in (Tri (V3 ax ay az) (V3 bx by_ bz) (V3 cx cy cz)) _ (or_intror (or_introl eq_refl)))) as A2. pose proof (H _ (vertex_in (Tri (V3 ax ay az) (V3 bx by_ bz) (V3 cx cy cz)) _ (or_intror (or_intror eq_refl)))) as A3.
    cbn [tri_a tri_b tri_c vx vy vz] in *. clear H. revert B. unfold Rmin, Rmax. repeat destruct Rle_dec; lra.
Qed.
Print Assumptions C80_bounds.
(** The areas returned are twice the areas; positive for counter-clockwise corners; SignedArea is the barycentric coordinate of a times twice the area. *)
Theorem C80_areas (t : triangle R) (p q r : v2 R) (u v w : R) : let '(Tri a b c) := t in
  Tri_Area2D p q r = (x2 q - x2 p) * (y2 r - y2 p) - (y2 q - y2 p) * (x2 r - x2 p) /\
  (eps6 < norm (cross (minus b a) (minus c a)) -> u + v + w = 1 -> Tri_SignedArea (bary t u v w) a b c = u * (2 * Tri_Area t)).
Proof.
  destruct t as [a b c]. split; [unfold Tri_Area2D; rsimpl; ring|]. unfold eps6. intros L E. unfold Tri_SignedArea, Tri_Area, Tri_UnnormalizedNormalCCW. cbn [tri_a tri_b tri_c]. toG. change (@Cross R Num_R) with cross. change (@Length R Num_R) with norm.
  replace (@nhalf R _) with (1 / 2) by (unfold nhalf; rewrite nlit_R; lra). rewrite Normalized_R by lra. set (n := cross (minus b a) (minus c a)) in *. assert (Ew : w = 1 - u - v) by lra. subst w.
  assert (G : cross (minus b (bary (Tri a b c) u v (1 - u - v))) (minus c (bary (Tri a b c) u v (1 - u - v))) = scale u n) by (apply vec_ext; unfold n, cross, bary; gunf; cbn [vx vy vz tri_a tri_b tri_c]; ring).
  rewrite G, dot_scale_l, dot_scale_r, <- norm_sq. rsimpl. field. lra.
Qed.
Print Assumptions C80_areas.
(** Transforms: the triangle of the image is the image of the triangle. *)
Lemma tri_image (f : pt -> pt) (t : triangle R) : (forall u v w, u + v + w = 1 -> f (bary t u v w) = bary (Tri (f (tri_a t)) (f (tri_b t)) (f (tri_c t))) u v w) ->
  forall p, in_triangle (Tri (f (tri_a t)) (f (tri_b t)) (f (tri_c t))) p <-> image f (in_triangle t) p.
Proof.
  intros F p. unfold image. split.
  - intros (u & v & w & Hu & Hv & Hw & E & ->). exists (bary t u v w). split; [now apply bary_in|]. rewrite F by exact E. reflexivity.
  - intros (x & (u & v & w & Hu & Hv & Hw & E & ->) & ->). exists u, v, w. repeat split; try assumption. apply (F u v w E).
Qed.
Theorem C80_transforms (t : triangle R) (m : mat34 R) (a : mat3 R) (q : quat R) (o : pt) :
  (forall p, in_triangle (Tri_Translate t o) p <-> image (fun x => plus x o) (in_triangle t) p) /\
  (forall p, in_triangle (Tri_Transform3 t a) p <-> image (apply a) (in_triangle t) p) /\
  (forall p, in_triangle (Tri_Transform34 t m) p <-> image (apply34 m) (in_triangle t) p) /\
  (forall p, in_triangle (Tri_TransformQuat t q) p <-> image (apply (FromQuat q)) (in_triangle t) p).
Proof.
  assert (L : forall b : mat3 R, forall u v w, apply b (bary t u v w) = bary (Tri (apply b (tri_a t)) (apply b (tri_b t)) (apply b (tri_c t))) u v w) by (intros b u v w; apply vec_ext; unfold apply, bary; gunf; cbn [vx vy vz tri_a tri_b tri_c]; ring).
  repeat split.
  - apply (tri_image (fun x => plus x o)). intros u v w E. assert (w = 1 - u - v) by lra. subst w. apply vec_ext; unfold bary; gunf; cbn [vx vy vz tri_a tri_b tri_c]; ring.
  - apply (tri_image (fun x => plus x o)). intros u v w E. assert (w = 1 - u - v) by lra. subst w. apply vec_ext; unfold bary; gunf; cbn [vx vy vz tri_a tri_b tri_c]; ring.
  - apply (tri_image (apply a)). intros; apply L.
  - apply (tri_image (apply a)). intros; apply L.
  - apply (tri_image (apply34 m)). intros u v w E. assert (w = 1 - u - v) by lra. subst w. apply vec_ext; unfold apply34, apply, bary; gunf; cbn [vx vy vz tri_a tri_b tri_c]; ring.
  - apply (tri_image (apply34 m)). intros u v w E. assert (w = 1 - u - v) by lra. subst w. apply vec_ext; unfold apply34, apply, bary; gunf; cbn [vx vy vz tri_a tri_b tri_c]; ring.
  - apply (tri_image (apply (FromQuat q))). intros; apply L.
  - apply (tri_image (apply (FromQuat q))). intros; apply L.
Qed.
Print Assumptions C80_transforms.
(** IsDegenerate looks only for coinciding corners: a triangle whose corners lie on a line is not reported. *)
Theorem C80_degenerate_refuted : exists t : triangle R, ~ proper_tri t /\ Tri_IsDegenerate t (1 / 1000) = false.
Proof.
  exists (Tri (V3 0 0 0) (V3 1 0 0) (V3 2 0 0)). split.
  - intros P. destruct (P 2 (-1)) as [E _]; [apply vec_ext; gunf; cbn; ring|lra].
  - unfold Tri_IsDegenerate, vEquals. cbn [tri_a tri_b tri_c vx vy vz]. rsimpl. rewrite ?Abs_R.
    assert (A : forall x y, 1 / 1000 <= Rabs (x - y) -> Rltb (Rabs (x - y)) (1 / 1000) = false) by (intros; now apply Rltb_false).
    rewrite (A 0 1), (A 0 2), (A 1 2); [reflexivity|..]; unfold Rabs; destruct Rcase_abs; lra.
Qed.
Print Assumptions C80_degenerate_refuted.
(** Sampling: the points inside are all reached; the point on the outline lies at distance r along it. *)
Theorem C80_random (t : triangle R) (r : R) : let '(Tri a b c) := t in
  (forall p, in_triangle t p <-> exists s k, 0 <= s <= 1 /\ 0 <= k <= 1 /\ Tri_RandomPointInside t s k = p) /\
  (forall s k, 0 <= s -> 0 <= k -> s + k < 1 -> Tri_RandomPointInside t s k = bary t (1 - s - k) s k) /\
  (proper_tri t -> 0 <= r <= Tri_Perimeter t -> let p := Tri_RandomPointOnEdge t r in
    (r <= dist a b -> on_segment (Seg a b) p /\ dist a p = r) /\ (dist a b <= r <= dist a b + dist b c -> on_segment (Seg b c) p /\ dist b p = r - dist a b) /\
    (dist a b + dist b c <= r -> on_segment (Seg c a) p /\ dist c p = r - dist a b - dist b c)).
Proof.
  destruct t as [a b c]. split; [|split].
  - intros p. split.
    + intros (u & v & w & Hu & Hv & Hw & E & ->). destruct (Req_dec u 0) as [Z|Z].
      * exists (1 - v), (1 - w). split; [lra|]. split; [lra|]. unfold Tri_RandomPointInside. rsimpl. destruct (Rleb_spec 1 (1 - v + (1 - w))) as [L|L]; [|lra]. rewrite Tri_Point_R. unfold bary. f_equal; [|f_equal]; f_equal; lra.
      * exists v, w. split; [lra|]. split; [lra|]. unfold Tri_RandomPointInside. rsimpl. destruct (Rleb_spec 1 (v + w)) as [L|L]; [lra|]. rewrite Tri_Point_R. unfold bary. f_equal. f_equal. lra.
    + intros (s & k & S & K & <-). unfold Tri_RandomPointInside. rsimpl. destruct (Rleb_spec 1 (s + k)) as [L|L]; rewrite Tri_Point_R; apply bary_in; lra.
  - intros s k S K L. unfold Tri_RandomPointInside. rsimpl. destruct (Rleb_spec 1 (s + k)) as [L'|L']; [lra|]. apply Tri_Point_R.
  - intros P [R0 R1]. cbv zeta. unfold Tri_RandomPointOnEdge, Tri_Perimeter in *. cbn [tri_a tri_b tri_c] in *. change (@Distance R Num_R) with dist in *. cbv zeta. rsimpl.
    assert (DP : 0 < dist a b /\ 0 < dist b c /\ 0 < dist c a).
    { assert (Q : forall x y, x <> y -> 0 < dist x y) by (intros x y N; destruct (norm_pos (minus x y)) as [H|H]; [exact H|symmetry in H; now apply dist_zero in H]).
      repeat split; apply Q; intros E; subst; [destruct (P 1 0) as [F _]|destruct (P 1 (-1)) as [F _]|destruct (P 0 1) as [_ F]]; try lra; apply vec_ext; gunf; cbn; ring. }
    destruct DP as (D1 & D2 & D3).
    assert (ON : forall x y z, 0 <= z <= dist x y -> 0 < dist x y -> let p := vadd x (vdivs (vmuls (vsub y x) z) (dist x y)) in on_segment (Seg x y) p /\ dist x p = z).
    { intros x y z Z D p. assert (E : p = along x (minus y x) (z / dist x y)) by (apply vec_ext; unfold p, along; vunf; gunf; rsimpl; cbn [vx vy vz]; field; lra).
      assert (ZD : 0 <= z / dist x y) by (apply Rmult_le_pos; [lra|left; now apply Rinv_0_lt_compat]). split.
      - exists (z / dist x y). split; [split; [exact ZD|apply Rmult_le_reg_r with (dist x y); [lra|]; unfold Rdiv; rewrite Rmult_assoc, Rinv_l by lra; lra]|]. cbn [seg_a seg_b]. rewrite E. apply vec_ext; unfold along; gunf; cbn [vx vy vz]; ring.
      - rewrite E. transitivity (z / dist x y * dist x y); [|field; lra]. unfold dist at 1 3. replace (minus x (along x (minus y x) (z / dist x y))) with (scale (z / dist x y) (minus x y)) by (apply vec_ext; unfold along; gunf; cbn [vx vy vz]; ring).
        unfold norm. rewrite dot_scale_l, dot_scale_r, <- Rmult_assoc, sqrt_mult; [|nra|apply dot_pos]. rewrite sqrt_square by exact ZD. reflexivity. }
    assert (END : forall x y z, z = 0 -> vadd x (vdivs (vmuls (vsub y x) z) (dist x y)) = x) by (intros x y z ->; apply vec_ext; vunf; gunf; rsimpl; cbn [vx vy vz]; unfold Rdiv; ring).
    assert (SB : forall x y, on_segment (Seg x y) y) by (intros x y; exists 1; split; [lra|]; apply vec_ext; gunf; cbn [vx vy vz seg_a seg_b]; ring).
    destruct (Rltb_spec r (dist a b)) as [L1|L1]; [|destruct (Rltb_spec (r - dist a b) (dist b c)) as [L2|L2]].
    + split; [intros _; apply ON; lra|]. split; intros; lra.
    + split; [intros L; assert (r = dist a b) by lra; rewrite END by lra; split; [apply SB|lra]|]. split; [intros _; apply ON; lra|]. intros; lra.
    + split; [intros L; exfalso; lra|]. split; [intros L; rewrite END by lra; split; [apply SB|lra]|]. intros _. apply ON; lra.
Qed.
Print Assumptions C80_random.
Theorem C80_degenerate (t : triangle R) (e : R) : let near p q := Rabs (vx p - vx q) < e /\ Rabs (vy p - vy q) < e /\ Rabs (vz p - vz q) < e in
  Tri_IsDegenerate t e = true <-> near (tri_a t) (tri_b t) \/ near (tri_a t) (tri_c t) \/ near (tri_b t) (tri_c t).
Proof.
  intros near. unfold Tri_IsDegenerate, vEquals. rewrite ?Abs_R. rsimpl. rewrite !orb_true_iff, !andb_true_iff, !Rltb_true. unfold near. tauto.
Qed.
Print Assumptions C80_degenerate.
Example C80_witness : proper_tri kite1 /\ eps6 < norm (cross (minus (tri_b kite1) (tri_a kite1)) (minus (tri_c kite1) (tri_a kite1))).
Proof.
  destruct kites as (P & _). split; [exact P|]. replace (cross (minus (tri_b kite1) (tri_a kite1)) (minus (tri_c kite1) (tri_a kite1))) with (V3 0 (-2) 0) by (apply vec_ext; unfold kite1, cross; gunf; cbn; ring). rewrite (norm_is _ 2); [unfold eps6; lra|lra|gunf; cbn; ring].
Qed.
(** The hypotheses of C47_triangle and C81_apart: the second triangle lies well above the plane of the first. *)
Example C81_apart_witness : let t := Tri (V3 0 0 0) (V3 1 0 0) (V3 0 1 0) in let t' := Tri (V3 0 0 1) (V3 1 0 2) (V3 0 1 1) in
  proper_tri t /\ proper_tri t' /\ skew t t' /\ clear_of t t' /\ fst (Tri_IntersectsTri t t') = false.
Proof.
  cbv zeta. set (t := Tri (V3 0 0 0) _ _). set (t' := Tri (V3 0 0 1) _ _).
  assert (N1 : nrm t = V3 0 0 1) by (apply vec_ext; unfold nrm, t, cross; gunf; cbn; ring). assert (N2 : nrm t' = V3 (-1) 0 1) by (apply vec_ext; unfold nrm, t', cross; gunf; cbn; ring).
  assert (P : proper_tri t) by (apply proper_nrm; rewrite N1; intros E; injection E; lra). assert (P' : proper_tri t') by (apply proper_nrm; rewrite N2; intros E; injection E; lra).
  assert (L1 : norm (nrm t) = 1) by (rewrite N1; apply norm_is; [lra|gunf; cbn; ring]).
  assert (A1 : forall p, above t p = vz p) by (intros p; unfold above; rewrite vol_nrm; fold (nrm t); rewrite L1, N1; unfold t; gunf; cbn; field).
  assert (S : skew t t').
  { unfold skew. rewrite L1, N1, N2. replace (dot (V3 0 0 1) (V3 (-1) 0 1)) with 1 by (gunf; cbn; ring). rewrite Rabs_R1. unfold norm. replace (dot (V3 (-1) 0 1) (V3 (-1) 0 1)) with 2 by (gunf; cbn; ring).
    assert (5 / 4 < sqrt 2) by (rewrite <- (sqrt_square (5 / 4)) by lra; apply sqrt_lt_1; lra). lra. }
  assert (C : clear_of t t') by (left; intros p (u & v & w & Hu & Hv & Hw & E & ->); rewrite A1; unfold t', plus, scale, tol; cbn; nra).
  repeat (split; [assumption|]). now rewrite (proj1 (C81_apart t t' P P' S (or_introl C))).
Qed.
