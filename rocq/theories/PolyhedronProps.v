(** C98: a convex polyhedron's faces bound exactly the hull of its vertices; [ContainsConvex] and [IntersectsConvex]. *)
From Coq Require Import Reals Lra Psatz ZArith Bool List Permutation Classical Lia.
From Verif Require Import Num NumR ScalarProofs Vec3Model GeoTypes GeoSpec GeoLemmas AabbSpec LineModel LineSpec LineProps MatSpec MatProofs MatProofs2 SphereSpec SatTheory PlaneModel PlaneSpec PlaneProps PolyTopoModel PolyTopoSpec PolyTopoProofs PolyTopoProps PolyhedronModel PolyhedronSpec PolyhedronProofs.
Import ListNotations.
Open Scope R_scope.
Ltac Zify.zify_post_hook ::= idtac.

Lemma Vertex_at (P : polyhedron R) i : Hed_Vertex P i = at_index (hv P) i. Proof. reflexivity. Qed.
(** The plane the code computes for an outward face. *)
Lemma face_plane (P : polyhedron R) f n : (3 <= length f)%nat -> outward (hv P) f n ->
  exists pl k, Hed_FacePlane P f = Some pl /\ 0 < k /\ pnormal pl = scale k n /\ unitv (pnormal pl) /\ forall q x, In x f -> height pl q = k * dot n (minus q (at_index (hv P) x)).
Proof.
  intros L O. destruct f as [|x [|y [|z l]]]; cbn [length] in L; try lia. pose proof (first_corner _ _ _ O) as F. cbn [nth] in F. pose proof (outward_nz _ _ _ O) as NZ.
  set (a := at_index (hv P) x) in *. set (b := at_index (hv P) y) in *. set (c := at_index (hv P) z) in *.
  assert (HU : dot n (minus b a) = 0) by (apply (flat _ _ _ O); cbn; auto). assert (HW : dot n (minus c a) = 0) by (apply (flat _ _ _ O); cbn; auto).
  pose proof (cross_normal n _ _ NZ HU HW) as E. set (k0 := _ / _) in E. pose proof (nz_pos n NZ) as NN. assert (K0 : 0 < k0) by (apply Rdiv_lt_0_compat; [exact F|exact NN]).
  assert (CN : Cross (minus b a) (minus c a) <> origin).
  { change (@Cross R Num_R) with cross. rewrite E. intros Q. apply (f_equal (dot n)) in Q. rewrite dot_scale_r in Q. rewrite (dot_origin_r n) in Q. nra. }
  destruct (C39_through_points a b c CN) as (U & PA & _ & _ & _). exists (Plane_Set3 a b c).
  assert (PN : exists k, 0 < k /\ pnormal (Plane_Set3 a b c) = scale k n).
  { unfold Plane_Set3. toG. change (@Length R Num_R) with norm. change (@Cross R Num_R) with cross. rewrite E. cbn [pnormal]. 
    assert (LP : 0 < norm (scale k0 n)) by (destruct (norm_pos (scale k0 n)) as [H|H]; [exact H|]; symmetry in H; apply norm_zero in H; change (@Cross R Num_R) with cross in CN; rewrite E in CN; contradiction).
    exists (k0 / norm (scale k0 n)). split; [now apply Rdiv_lt_0_compat|]. set (m := norm (scale k0 n)) in *. unfold vdivs. rsimpl. gunf. apply vec_ext; cbn [vx vy vz]; field; lra. }
  destruct PN as (k & K & PN). exists k. split; [reflexivity|]. split; [exact K|]. split; [exact PN|]. split; [exact U|].
  intros q w W. unfold height. unfold on_plane in PA. rewrite <- PA, PN, !dot_scale_l, dot_minus_r.
  assert (Z : dot n (minus (at_index (hv P) w) a) = 0) by (apply (flat _ _ _ O); [now left|exact W]). rewrite dot_minus_r in Z. replace (dot n a) with (dot n (at_index (hv P) w)) by lra. ring.
Qed.
(** With a unit normal the code's plane has that normal. *)
Lemma face_plane_unit (P : polyhedron R) f n : (3 <= length f)%nat -> outward (hv P) f n -> unitv n ->
  exists pl, Hed_FacePlane P f = Some pl /\ pnormal pl = n /\ forall q x, In x f -> height pl q = dot n (minus q (at_index (hv P) x)).
Proof.
  intros L O UN. destruct (face_plane P f n L O) as (pl & k & E & K & PN & U & H). assert (K1 : k = 1).
  { unfold unitv in U, UN. rewrite PN, dot_scale_l, dot_scale_r, UN in U. nra. }
  subst k. exists pl. split; [exact E|]. split; [rewrite PN; apply vec_ext; gunf; cbn; ring|]. intros q x X. rewrite (H q x X). ring.
Qed.
(** Every outward normal can be made a unit normal. *)
Lemma outward_scale vs f n k : 0 < k -> outward vs f n -> outward vs f (scale k n).
Proof.
  intros K O. split.
  - intros x y X Y. rewrite dot_scale_l, (flat _ _ _ O) by assumption. ring.
  - intros a b x I X. rewrite dot_scale_l. pose proof (left_of_edges _ _ _ O a b x I X). nra.
  - rewrite dot_scale_l. pose proof (first_corner _ _ _ O). now apply Rmult_lt_0_compat.
  - intros x v X V. rewrite dot_scale_l. pose proof (behind _ _ _ O x v X V). nra.
Qed.
Lemma outward_unit vs f n : outward vs f n -> exists k, 0 < k /\ unitv (scale k n) /\ outward vs f (scale k n).
Proof.
  intros O. pose proof (nz_pos n (outward_nz _ _ _ O)) as NN. exists (/ norm n). assert (L : 0 < norm n) by (pose proof (norm_sq n); pose proof (norm_pos n); nra).
  assert (K : 0 < / norm n) by now apply Rinv_0_lt_compat. split; [exact K|]. split; [unfold unitv; rewrite dot_scale_l, dot_scale_r, <- norm_sq; field; lra|now apply outward_scale].
Qed.
(** Two outward normals of a face are parallel. *)
Lemma outward_unique (P : polyhedron R) f n m : (3 <= length f)%nat -> outward (hv P) f n -> outward (hv P) f m -> exists k, 0 < k /\ m = scale k n.
Proof.
  intros L O O'. destruct (face_plane P f n L O) as (pl & k & E & K & PN & _). destruct (face_plane P f m L O') as (pl' & k' & E' & K' & PN' & _). rewrite E in E'. injection E' as <-. rewrite PN in PN'. exists (k / k'). split; [now apply Rdiv_lt_0_compat|].
  apply vec_ext; [apply (f_equal vx) in PN'|apply (f_equal vy) in PN'|apply (f_equal vz) in PN']; gunf; cbn in PN' |- *; apply Rmult_eq_reg_l with k'; try lra; rewrite <- PN'; field; lra.
Qed.
(** Being behind all faces with respect to one normal each is enough. *)
Lemma behind_some (P : polyhedron R) q : valid (length (hv P)) (hf P) -> (forall f, In f (hf P) -> exists n, outward (hv P) f n /\ forall x, In x f -> dot n (minus q (at_index (hv P) x)) <= 0) -> behind_all (hv P) (hf P) q.
Proof.
  intros V H f m F O x X. destruct (H f F) as (n & O' & K). destruct (V f F) as (L & _). destruct (outward_unique P f n m L O' O) as (k & K0 & ->). rewrite dot_scale_l. specialize (K x X). nra.
Qed.

(** [ContainsConvex]: with tolerance zero exactly the hull of the vertices; with a tolerance the points at most that far in front of every face. *)
Theorem C98_contains (P : polyhedron R) q : convex_solid (hv P) (hf P) ->
  (Hed_ContainsConvex P q 0 = true <-> in_hull (hv P) q) /\
  (forall eps, Hed_ContainsConvex P q eps = true <-> forall f n x, In f (hf P) -> outward (hv P) f n -> unitv n -> In x f -> dot n (minus q (at_index (hv P) x)) <= eps) /\
  (forall eps, 0 <= eps -> in_hull (hv P) q -> Hed_ContainsConvex P q eps = true).
Proof.
  intros S. pose proof S as (V & C & NE & c & IC).
  assert (G : forall eps, Hed_ContainsConvex P q eps = true <-> forall f n x, In f (hf P) -> outward (hv P) f n -> unitv n -> In x f -> dot n (minus q (at_index (hv P) x)) <= eps).
  { intros eps. unfold Hed_ContainsConvex. rewrite forallb_forall. split.
    - intros H f n x F O U X. specialize (H f F). destruct (V f F) as (L & _). destruct (face_plane_unit P f n L O U) as (pl & E & _ & HH). rewrite E in H. change (@Plane_SignedDistance R Num_R) with height in H. rewrite (HH q x X) in H. apply negb_true_iff in H. change (@nltb R Num_R) with Rltb in H. apply Rltb_false in H. exact H.
    - intros H f F. destruct (V f F) as (L & _). destruct (IC f F) as (n0 & O0 & _). destruct (outward_unit _ _ _ O0) as (k & _ & U & O). destruct (face_plane_unit P f _ L O U) as (pl & E & _ & HH). rewrite E. change (@Plane_SignedDistance R Num_R) with height.
      destruct f as [|x f]; [cbn in L; lia|]. rewrite (HH q x (or_introl eq_refl)). apply negb_true_iff. change (@nltb R Num_R) with Rltb. apply Rltb_false. apply (H (x :: f)); auto. now left. }
  assert (B : Hed_ContainsConvex P q 0 = true <-> in_hull (hv P) q).
  { rewrite G. split.
    - intros H. apply (solid_hull _ _ _ S). apply (behind_some P q V). intros f F. destruct (IC f F) as (n0 & O0 & _). destruct (outward_unit _ _ _ O0) as (k & _ & U & O). exists (scale k n0). split; [exact O|]. intros x X. now apply (H f).
    - intros I f n x F O _ X. exact (hull_behind _ _ _ I f n F O x X). }
  split; [exact B|]. split; [exact G|]. intros eps E I. apply G. intros f n x F O U X. pose proof (hull_behind _ (hf P) _ I f n F O x X). lra.
Qed.
Print Assumptions C98_contains.
(** Segments and triangles: inside the polyhedron grown by 1e-4 when all of their points are. *)
Definition grown_by (P : polyhedron R) (eps : R) (q : pt) : Prop :=
  forall f n x, In f (hf P) -> outward (hv P) f n -> unitv n -> In x f -> dot n (minus q (at_index (hv P) x)) <= eps.
Lemma grown_convex P eps : convex (grown_by P eps).
Proof.
  intros u v k U W K f n x F O N X. specialize (U f n x F O N X). specialize (W f n x F O N X).
  replace (minus (plus u (scale k (minus v u))) (at_index (hv P) x)) with (plus (scale (1 - k) (minus u (at_index (hv P) x))) (scale k (minus v (at_index (hv P) x)))) by (apply vec_ext; gunf; cbn; ring). rewrite dot_plus_r, !dot_scale_r. nra.
Qed.
Theorem C98_contains_objects (P : polyhedron R) (s : segment R) (t : triangle R) : convex_solid (hv P) (hf P) ->
  (Hed_ContainsConvexSeg P s = true <-> forall p, on_segment s p -> grown_by P (1 / 10000) p) /\
  (Hed_ContainsConvexTri P t = true <-> forall p, in_triangle t p -> grown_by P (1 / 10000) p).
Proof.
  intros S. assert (G : forall q, Hed_ContainsConvex P q (nlit 1 10000) = true <-> grown_by P (1 / 10000) q).
  { intros q. destruct (C98_contains P q S) as (_ & G & _). unfold grown_by. rewrite <- (G (1 / 10000)). rsimpl. reflexivity. }
  pose proof (grown_convex P (1 / 10000)) as CV. unfold Hed_ContainsConvexSeg, Hed_ContainsConvexTri. rewrite !andb_true_iff, !G. split.
  - split.
    + intros (A & B) p (k & K & ->). now apply CV.
    + intros H. split; apply H; [exists 0|exists 1]; (split; [lra|]); apply vec_ext; gunf; cbn; ring.
  - split.
    + intros ((A & B) & C) p (u & v & w & U & W & W' & E & ->).
      destruct (Req_dec (v + w) 0) as [Z|Z].
      * replace (plus _ _) with (tri_a t); [exact A|]. assert (v = 0) by lra. assert (w = 0) by lra. assert (u = 1) by lra. subst. apply vec_ext; gunf; cbn; ring.
      * set (m := plus (tri_b t) (scale (w / (v + w)) (minus (tri_c t) (tri_b t)))). assert (UV0 : 0 < v + w) by lra.
        assert (M : grown_by P (1 / 10000) m).
        { apply CV; [exact B|exact C|]. split; [apply Rmult_le_pos; [lra|left; now apply Rinv_0_lt_compat]|]. apply Rmult_le_reg_r with (v + w); [exact UV0|]. unfold Rdiv. rewrite Rmult_assoc, Rinv_l by lra. lra. }
        match goal with |- grown_by _ _ ?g => replace g with (plus (tri_a t) (scale (v + w) (minus m (tri_a t)))); [apply CV; [exact A|exact M|lra]|] end. unfold m. replace u with (1 - v - w) by lra. apply vec_ext; gunf; cbn; field; lra.
    + intros H. split; [split|]; apply H; [exists 1, 0, 0|exists 0, 1, 0|exists 0, 0, 1]; (split; [lra|]); (split; [lra|]); (split; [lra|]); (split; [lra|]); apply vec_ext; gunf; cbn; ring.
Qed.
Print Assumptions C98_contains_objects.

(** ** Clipping a line to the polyhedron *)
(** The direction is parallel to a face or its component along the unit normal is at least 1e-5. *)
Definition not_grazing (P : polyhedron R) (dir : pt) : Prop :=
  forall f n, In f (hf P) -> outward (hv P) f n -> unitv n -> dot n dir = 0 \/ 1 / 100000 <= Rabs (dot n dir).
(** The point is behind the faces listed. *)
Definition behind_list (vs : list pt) (gs : list (list Z)) (q : pt) : Prop := forall f n x, In f gs -> outward vs f n -> unitv n -> In x f -> dot n (minus q (at_index vs x)) <= 0.
Lemma clip_spec (P : polyhedron R) (a dir : pt) : valid (length (hv P)) (hf P) -> (forall f, In f (hf P) -> exists n, outward (hv P) f n /\ unitv n) -> not_grazing P dir ->
  forall gs t0 t1, incl gs (hf P) -> t0 <= t1 ->
  match clipFaces P a dir gs t0 t1 with
  | Some (s0, s1) => s0 <= s1 /\ forall t, (s0 <= t <= s1 <-> t0 <= t <= t1 /\ behind_list (hv P) gs (along a dir t))
  | None => forall t, t0 <= t <= t1 -> ~ behind_list (hv P) gs (along a dir t)
  end.
Proof.
  intros V OU NG. induction gs as [|f gs IH]; intros t0 t1 I LE; cbn [clipFaces].
  - split; [exact LE|]. intros t. split; [intros H; split; [exact H|intros f n x []]|tauto].
  - assert (F : In f (hf P)) by (apply I; now left). assert (I' : incl gs (hf P)) by (intros g G; apply I; now right). destruct (OU f F) as (n & O & U). destruct (V f F) as (L & _). destruct (face_plane_unit P f n L O U) as (pl & E & PN & HH). rewrite E. cbv zeta.
    assert (X : exists x, In x f) by (destruct f as [|x f]; [cbn in L; lia|exists x; now left]). destruct X as (x & X).
    assert (B : forall t, behind_list (hv P) (f :: gs) (along a dir t) <-> t * dot n dir <= pd pl - dot n a /\ behind_list (hv P) gs (along a dir t)).
    { intros t. pose proof (HH (along a dir t) x X) as H1. assert (H2 : height pl (along a dir t) = t * dot n dir - (pd pl - dot n a)) by (unfold height, along; rewrite PN, dot_plus_r, dot_scale_r; ring). split.
      - intros BL. split; [pose proof (BL f n x (or_introl eq_refl) O U X); lra|]. intros g m y G. apply BL. now right.
      - intros (D & BL) g m y [<-|G] Om Um Y; [|now apply (BL g)]. destruct (face_plane_unit P f m L Om Um) as (pl' & E' & PN' & HH'). rewrite E in E'. injection E' as <-. rewrite <- (HH' _ y Y), H2. lra. }
    change (@Dot R Num_R) with dot. rewrite PN, Abs_R. rsimpl. set (den := dot n dir) in *. set (dst := pd pl - dot n a) in *.
    destruct (Rltb (Rabs den) (1 / 100000)) eqn:G1.
    + apply Rltb_true in G1. destruct (NG f n F O U) as [Z|Z]; [|fold den in Z; lra]. fold den in Z. destruct (Rltb dst 0) eqn:G2; [apply Rltb_true in G2|apply Rltb_false in G2].
      * intros t T BL. apply B in BL as (BL & _). rewrite Z in BL. lra.
      * specialize (IH t0 t1 I' LE). destruct (clipFaces P a dir gs t0 t1) as [(s0 & s1)|].
        -- destruct IH as (LE' & IH). split; [exact LE'|]. intros t. rewrite IH, B, Z. split; [intros (H & K); split; [exact H|split; [lra|exact K]]|tauto].
        -- intros t T BL. apply B in BL as (_ & BL). exact (IH t T BL).
    + apply Rltb_false in G1. assert (NZ : den <> 0) by (intros Z; rewrite Z, Rabs_R0 in G1; lra).
      assert (TT : forall t, t * den <= dst <-> if Rltb den 0 then dst / den <= t else t <= dst / den).
      { intros t. destruct (Rltb den 0) eqn:G2; [apply Rltb_true in G2|apply Rltb_false in G2].
        - split; intros H.
          + apply Rmult_le_reg_r with (- den); [lra|]. replace (dst / den * - den) with (- dst) by (field; exact NZ). lra.
          + replace dst with (dst / den * den) by (field; exact NZ). nra.
        - assert (0 < den) by lra. split; intros H'.
          + apply Rmult_le_reg_r with den; [lra|]. replace (dst / den * den) with dst by (field; exact NZ). lra.
          + replace dst with (dst / den * den) by (field; exact NZ). nra. }
      rewrite Max_R, Min_R. set (tf := if Rltb den 0 then Rmax (dst / den) t0 else t0). set (tl := if Rltb den 0 then t1 else Rmin (dst / den) t1).
      assert (RNG : forall t, tf <= t <= tl <-> t0 <= t <= t1 /\ t * den <= dst).
      { intros t. rewrite TT. unfold tf, tl. destruct (Rltb den 0).
        - split; [intros (H1 & H2)|intros ((H1 & H2) & H3)]; [pose proof (Rmax_l (dst / den) t0); pose proof (Rmax_r (dst / den) t0); lra|split; [now apply Rmax_lub|exact H2]].
        - split; [intros (H1 & H2)|intros ((H1 & H2) & H3)]; [pose proof (Rmin_l (dst / den) t1); pose proof (Rmin_r (dst / den) t1); lra|split; [exact H1|now apply Rmin_glb]]. }
      destruct (Rltb tl tf) eqn:G3; [apply Rltb_true in G3|apply Rltb_false in G3].
      * intros t T BL. apply B in BL as (BL & _). assert (tf <= t <= tl) by (apply RNG; tauto). lra.
      * specialize (IH tf tl I' G3). destruct (clipFaces P a dir gs tf tl) as [(s0 & s1)|].
        -- destruct IH as (LE' & IH). split; [exact LE'|]. intros t. rewrite IH, RNG, B. tauto.
        -- intros t T BL. apply B in BL as (D & BL). apply (IH t); [apply RNG; tauto|exact BL].
Qed.
Lemma solid_units P : convex_solid (hv P) (hf P) -> forall f, In f (hf P) -> exists n, outward (hv P) f n /\ unitv n.
Proof. intros (_ & _ & _ & c & IC) f F. destruct (IC f F) as (n & O & _). destruct (outward_unit _ _ _ O) as (k & _ & U & O'). eauto. Qed.
Lemma behind_list_hull P q : convex_solid (hv P) (hf P) -> behind_list (hv P) (hf P) q <-> in_hull (hv P) q.
Proof.
  intros S. split.
  - intros H. apply (solid_hull _ _ _ S). apply behind_some; [apply S|]. intros f F. destruct (solid_units P S f F) as (n & O & U). exists n. split; [exact O|]. intros x X. now apply (H f).
  - intros I f n x F O _ X. exact (hull_behind _ _ _ I f n F O x X).
Qed.
(** Clipping gives exactly the part of the parameter interval inside the polyhedron, and fails exactly when that part is empty. *)
Theorem C98_clip (P : polyhedron R) (a dir : pt) t0 t1 : convex_solid (hv P) (hf P) -> not_grazing P dir -> t0 <= t1 ->
  match clipFaces P a dir (hf P) t0 t1 with
  | Some (s0, s1) => s0 <= s1 /\ forall t, (s0 <= t <= s1 <-> t0 <= t <= t1 /\ in_hull (hv P) (along a dir t))
  | None => forall t, t0 <= t <= t1 -> ~ in_hull (hv P) (along a dir t)
  end.
Proof.
  intros S NG LE. pose proof (clip_spec P a dir (proj1 S) (solid_units P S) NG (hf P) t0 t1 (incl_refl _) LE) as H. destruct (clipFaces P a dir (hf P) t0 t1) as [(s0 & s1)|].
  - destruct H as (H1 & H2). split; [exact H1|]. intros t. rewrite H2, behind_list_hull by exact S. tauto.
  - intros t T I. apply (H t T). now apply behind_list_hull.
Qed.
Print Assumptions C98_clip.
Definition flt_max : R := 340282346638528859811704183484516925440.
(** Segments, rays and lines (with parameters up to FLT_MAX) against the polyhedron. *)
Theorem C98_intersects (P : polyhedron R) : convex_solid (hv P) (hf P) ->
  (forall s, not_grazing P (minus (seg_b s) (seg_a s)) -> (Hed_IntersectsConvexSeg P s = true <-> exists p, on_segment s p /\ in_hull (hv P) p)) /\
  (forall r, not_grazing P (rdir r) -> (Hed_IntersectsConvexRay P r = true <-> exists t, 0 <= t <= flt_max /\ in_hull (hv P) (along (rpos r) (rdir r) t))) /\
  (forall l, not_grazing P (ldir l) -> (Hed_IntersectsConvexLine P l = true <-> exists t, - flt_max <= t <= flt_max /\ in_hull (hv P) (along (lpos l) (ldir l) t))).
Proof.
  intros S. assert (G : forall a dir t0 t1, not_grazing P dir -> t0 <= t1 -> is_some (clipFaces P a dir (hf P) t0 t1) = true <-> exists t, t0 <= t <= t1 /\ in_hull (hv P) (along a dir t)).
  { intros a dir t0 t1 NG LE. pose proof (C98_clip P a dir t0 t1 S NG LE) as H. destruct (clipFaces P a dir (hf P) t0 t1) as [(s0 & s1)|]; cbn [is_some].
    - destruct H as (H1 & H2). split; [|reflexivity]. intros _. exists s0. apply H2. lra.
    - split; [discriminate|]. intros (t & T & I). now apply H in I. }
  assert (FM : 0 <= flt_max) by (unfold flt_max; lra). assert (E : @fltMax R Num_R = flt_max) by (unfold fltMax, flt_max; rsimpl; lra). split; [|split].
  - intros s NG. unfold Hed_IntersectsConvexSeg. rsimpl. toG. rewrite (G _ _ _ _ NG) by lra. split.
    + intros (t & T & I). exists (along (seg_a s) (minus (seg_b s) (seg_a s)) t). split; [|exact I]. exists t. split; [exact T|reflexivity].
    + intros (p & (t & T & ->) & I). exists t. split; [exact T|exact I].
  - intros r NG. unfold Hed_IntersectsConvexRay. rewrite E. rsimpl. now rewrite (G _ _ _ _ NG) by lra.
  - intros l NG. unfold Hed_IntersectsConvexLine. rewrite E. rsimpl. now rewrite (G _ _ _ _ NG) by lra.
Qed.
Print Assumptions C98_intersects.

(** The corner tetrahedron is such a solid, and so is anything its faces bound. *)
Definition tetra : polyhedron R := Hed [V3 0 0 0; V3 1 0 0; V3 0 1 0; V3 0 0 1] [[0; 2; 1]; [0; 1; 3]; [0; 3; 2]; [1; 2; 3]]%Z.
Lemma tetra_valid : valid 4 (hf tetra). Proof. apply C95_valid. reflexivity. Qed.
Lemma tetra_closed : closed (hf tetra). Proof. apply (C95_closed_valid 4); [exact tetra_valid|reflexivity]. Qed.
Lemma tetra_at : at_index (hv tetra) 0 = V3 0 0 0 /\ at_index (hv tetra) 1 = V3 1 0 0 /\ at_index (hv tetra) 2 = V3 0 1 0 /\ at_index (hv tetra) 3 = V3 0 0 1.
Proof. repeat split. Qed.
Lemma tetra_face f : In f (hf tetra) -> exists n, outward (hv tetra) f n /\ forall x, In x f -> dot n (minus (V3 (1/8) (1/8) (1/8)) (at_index (hv tetra) x)) < 0.
Proof.
  destruct tetra_at as (T0 & T1 & T2 & T3).
  intros [<-|[<-|[<-|[<-|[]]]]]; (eexists; split; [apply outward_triangle|]); rewrite ?T0, ?T1, ?T2, ?T3.
  all: try (intros E; apply (f_equal (fun v => vx v + vy v + vz v)) in E; unfold cross, origin in E; gunf; cbn in E; lra).
  all: intros v V; cbn [In hv tetra] in V; repeat (destruct V as [<-|V]); try contradiction; rewrite ?T0, ?T1, ?T2, ?T3; unfold cross; gunf; cbn; lra.
Qed.
Lemma tetra_solid : convex_solid (hv tetra) (hf tetra).
Proof. split; [exact tetra_valid|]. split; [exact tetra_closed|]. split; [discriminate|]. exists (V3 (1/8) (1/8) (1/8)). exact tetra_face. Qed.
Example C98_contains_witness : convex_solid (hv tetra) (hf tetra) /\ Hed_ContainsConvex tetra (V3 (1/4) (1/4) (1/4)) 0 = true /\ Hed_ContainsConvex tetra (V3 1 1 1) 0 = false.
Proof.
  split; [exact tetra_solid|]. split.
  - apply (proj1 (C98_contains tetra _ tetra_solid)). intros A CV H. assert (HV : forall v, In v (hv tetra) -> A v) by exact H. 
    assert (A1 : A (V3 (1/2) (1/2) 0)) by (replace (V3 (1/2) (1/2) 0) with (plus (V3 1 0 0) (scale (1/2) (minus (V3 0 1 0) (V3 1 0 0)))) by (apply vec_ext; gunf; cbn; lra); apply CV; [apply HV; cbn; auto|apply HV; cbn; auto|lra]).
    assert (A2 : A (V3 0 0 (1/2))) by (replace (V3 0 0 (1/2)) with (plus (V3 0 0 0) (scale (1/2) (minus (V3 0 0 1) (V3 0 0 0)))) by (apply vec_ext; gunf; cbn; lra); apply CV; [apply HV; cbn; auto|apply HV; cbn; auto|lra]).
    replace (V3 (1/4) (1/4) (1/4)) with (plus (V3 (1/2) (1/2) 0) (scale (1/2) (minus (V3 0 0 (1/2)) (V3 (1/2) (1/2) 0)))) by (apply vec_ext; gunf; cbn; lra). apply CV; [exact A1|exact A2|lra].
  - apply not_true_iff_false. intros H. apply (proj1 (C98_contains tetra _ tetra_solid)) in H. 
    specialize (H (fun q => vx q + vy q + vz q <= 1)). cbn in H. assert (1 + 1 + 1 <= 1); [|lra]. apply H.
    + intros u v k U W K. gunf. cbn. nra.
    + intros v V. repeat (destruct V as [<-|V]); try contradiction; cbn; lra.
Qed.
(** A short segment that crosses a face, with one end well inside the polyhedron, is reported as missing it: its direction looks parallel to the face. *)
Theorem C98_short_refuted : exists (P : polyhedron R) (s : segment R), convex_solid (hv P) (hf P) /\ in_hull (hv P) (seg_b s) /\ Hed_IntersectsConvexSeg P s = false.
Proof.
  exists tetra, (Seg (V3 (1/4) (1/4) (- (1 / 1000000))) (V3 (1/4) (1/4) (1 / 1000000))). split; [exact tetra_solid|]. split.
  - apply (solid_hull _ _ _ tetra_solid). apply (behind_some tetra); [exact tetra_valid|]. intros f F. destruct tetra_at as (T0 & T1 & T2 & T3).
    destruct F as [<-|[<-|[<-|[<-|[]]]]]; (eexists; split; [apply outward_triangle|]); rewrite ?T0, ?T1, ?T2, ?T3.
    all: try (intros E; apply (f_equal (fun v => vx v + vy v + vz v)) in E; unfold cross, origin in E; gunf; cbn in E; lra).
    all: intros v V; cbn [In hv tetra] in V; repeat (destruct V as [<-|V]); try contradiction; rewrite ?T0, ?T1, ?T2, ?T3; unfold cross; cbn [seg_b]; gunf; cbn; lra.
  - unfold Hed_IntersectsConvexSeg. cbn [seg_a seg_b hf tetra clipFaces]. assert (O : exists n, outward (hv tetra) [0; 2; 1]%Z n /\ unitv n) by (apply (solid_units tetra tetra_solid); now left).
    assert (OZ : outward (hv tetra) [0; 2; 1]%Z (V3 0 0 (-1))).
    { destruct tetra_at as (T0 & T1 & T2 & T3). replace (V3 0 0 (-1)) with (cross (minus (at_index (hv tetra) 2) (at_index (hv tetra) 0)) (minus (at_index (hv tetra) 1) (at_index (hv tetra) 0))) by (rewrite T0, T1, T2; apply vec_ext; unfold cross; gunf; cbn; lra).
      apply outward_triangle; rewrite T0, T1, T2; [intros E; apply (f_equal vz) in E; unfold cross, origin in E; gunf; cbn in E; lra|]. intros v V. cbn [In hv tetra] in V. repeat (destruct V as [<-|V]); try contradiction; unfold cross; gunf; cbn; lra. }
    assert (UZ : unitv (V3 0 0 (-1))) by (unfold unitv; gunf; cbn; lra).
    destruct (face_plane_unit tetra [0; 2; 1]%Z _ ltac:(cbn; lia) OZ UZ) as (pl & E & PN & HH). rewrite E. cbv zeta. change (@Dot R Num_R) with dot. rewrite PN, Abs_R. rsimpl.
    pose proof (HH (V3 (1/4) (1/4) (- (1 / 1000000))) 0%Z (or_introl eq_refl)) as H0. destruct tetra_at as (T0 & _). rewrite T0 in H0. unfold height in H0. rewrite PN in H0. 
    assert (D1 : dot (V3 0 0 (-1)) (vsub (V3 (1/4) (1/4) (1 / 1000000)) (V3 (1/4) (1/4) (- (1 / 1000000)))) = - (2 / 1000000)) by (unfold vsub; rsimpl; gunf; cbn; lra). rewrite D1. rewrite Rabs_Ropp, Rabs_right by lra.
    replace (Rltb (2 / 1000000) (1 / 100000)) with true by (symmetry; apply Rltb_true; lra).
    match goal with |- is_some (if Rltb ?g 0 then _ else _) = false => replace (Rltb g 0) with true; [reflexivity|symmetry; apply Rltb_true] end.
    assert (D2 : dot (V3 0 0 (-1)) (minus (V3 (1/4) (1/4) (- (1 / 1000000))) (V3 0 0 0)) = 1 / 1000000) by (gunf; cbn; lra). lra.
Qed.
Print Assumptions C98_short_refuted.
Lemma tetra_normals f n : In f (hf tetra) -> outward (hv tetra) f n -> unitv n -> (f = [0; 2; 1]%Z /\ n = V3 0 0 (-1)) \/ (f = [0; 1; 3]%Z /\ n = V3 0 (-1) 0) \/ (f = [0; 3; 2]%Z /\ n = V3 (-1) 0 0) \/ (f = [1; 2; 3]%Z /\ exists k, 1 / 2 < k < 1 /\ n = V3 k k k).
Proof.
  intros F O U. destruct tetra_at as (T0 & T1 & T2 & T3). 
  assert (Q : forall i j k, f = [i; j; k] -> forall m, m = cross (minus (at_index (hv tetra) j) (at_index (hv tetra) i)) (minus (at_index (hv tetra) k) (at_index (hv tetra) i)) -> m <> origin -> (forall v, In v (hv tetra) -> dot m (minus v (at_index (hv tetra) i)) <= 0) -> exists k, 0 < k /\ n = scale k m).
  { intros i j k -> m -> NZ H. apply (outward_unique tetra [i; j; k]); [cbn; lia| |exact O]. now apply outward_triangle. }
  destruct F as [<-|[<-|[<-|[<-|[]]]]].
  - left. split; [reflexivity|]. destruct (Q 0%Z 2%Z 1%Z eq_refl (V3 0 0 (-1))) as (k & K & ->).
    + rewrite T0, T1, T2. apply vec_ext; unfold cross; gunf; cbn; lra.
    + intros E. apply (f_equal vz) in E. unfold origin in E. cbn in E. lra.
    + rewrite T0. intros v V. cbn [In hv tetra] in V. repeat (destruct V as [<-|V]); try contradiction; gunf; cbn; lra.
    + unfold unitv in U. gunf. cbn in U. assert (k = 1) by nra. subst. apply vec_ext; cbn; lra.
  - right. left. split; [reflexivity|]. destruct (Q 0%Z 1%Z 3%Z eq_refl (V3 0 (-1) 0)) as (k & K & ->).
    + rewrite T0, T1, T3. apply vec_ext; unfold cross; gunf; cbn; lra.
    + intros E. apply (f_equal vy) in E. unfold origin in E. cbn in E. lra.
    + rewrite T0. intros v V. cbn [In hv tetra] in V. repeat (destruct V as [<-|V]); try contradiction; gunf; cbn; lra.
    + unfold unitv in U. gunf. cbn in U. assert (k = 1) by nra. subst. apply vec_ext; cbn; lra.
  - right. right. left. split; [reflexivity|]. destruct (Q 0%Z 3%Z 2%Z eq_refl (V3 (-1) 0 0)) as (k & K & ->).
    + rewrite T0, T2, T3. apply vec_ext; unfold cross; gunf; cbn; lra.
    + intros E. apply (f_equal vx) in E. unfold origin in E. cbn in E. lra.
    + rewrite T0. intros v V. cbn [In hv tetra] in V. repeat (destruct V as [<-|V]); try contradiction; gunf; cbn; lra.
    + unfold unitv in U. gunf. cbn in U. assert (k = 1) by nra. subst. apply vec_ext; cbn; lra.
  - right. right. right. split; [reflexivity|]. destruct (Q 1%Z 2%Z 3%Z eq_refl (V3 1 1 1)) as (k & K & ->).
    + rewrite T1, T2, T3. apply vec_ext; unfold cross; gunf; cbn; lra.
    + intros E. apply (f_equal vx) in E. unfold origin in E. cbn in E. lra.
    + rewrite T1. intros v V. cbn [In hv tetra] in V. repeat (destruct V as [<-|V]); try contradiction; gunf; cbn; lra.
    + exists k. unfold unitv in U. gunf. cbn in U. split; [split; nra|]. apply vec_ext; cbn; lra.
Qed.
Example C98_clip_witness : convex_solid (hv tetra) (hf tetra) /\ not_grazing tetra (V3 0 0 2) /\ ~ in_hull (hv tetra) (V3 (1/4) (1/4) (-1)) /\ Hed_IntersectsConvexSeg tetra (Seg (V3 (1/4) (1/4) (-1)) (V3 (1/4) (1/4) 1)) = true.
Proof.
  assert (NG : not_grazing tetra (V3 0 0 2)).
  { intros f n F O U. destruct (tetra_normals f n F O U) as [(_ & ->)|[(_ & ->)|[(_ & ->)|(_ & k & K & ->)]]].
    - right. replace (dot _ _) with (-2) by (gunf; cbn; lra). rewrite Rabs_left by lra. lra.
    - left. gunf. cbn. lra.
    - left. gunf. cbn. lra.
    - right. replace (dot _ _) with (2 * k) by (gunf; cbn; lra). rewrite Rabs_right by lra. lra. }
  split; [exact tetra_solid|]. split; [exact NG|]. split.
  - intros I. specialize (I (fun q => 0 <= vz q)). cbn in I. assert (0 <= -1); [|lra]. apply I; [intros u v k A B K; gunf; cbn; nra|]. intros v V. repeat (destruct V as [<-|V]); try contradiction; cbn; lra.
  - apply (proj1 (C98_intersects tetra tetra_solid)); [cbn [seg_a seg_b]; replace (minus _ _) with (V3 0 0 2) by (apply vec_ext; gunf; cbn; lra); exact NG|]. exists (V3 (1/4) (1/4) (1/4)). split.
    + exists (5/8). split; [lra|]. apply vec_ext; gunf; cbn; lra.
    + apply (proj1 (C98_contains tetra _ tetra_solid)). apply C98_contains_witness.
Qed.
