(** C98 and C101, continued: the closest point of a convex polyhedron, linear images, bounding boxes. *)
From Coq Require Import Reals Lra Psatz ZArith Bool List Permutation Classical Lia.
From Verif Require Import Num NumR ScalarProofs Vec2Model Vec2Spec Vec2Props HullSpec Vec3Model Vec3Props GeoTypes GeoSpec GeoLemmas AabbSpec LineModel LineSpec LineProps MatSpec MatProofs MatProofs2 SphereSpec SatTheory PlaneModel PlaneSpec PlaneProps TriangleModel TriangleSpec TriangleProps PolyTopoModel PolyTopoSpec PolyTopoProofs PolyTopoProps PolyTopoProps3 PolygonModel PolygonSpec PolygonProps5 PolyhedronModel PolyhedronSpec PolyhedronProofs PolyhedronProps PolyhedronProps4 PolygonProps3.
Import ListNotations.
Open Scope R_scope.
Ltac Zify.zify_post_hook ::= idtac.

(** Every vertex on the plane of a face is a corner of that face: no facet of the solid is cut into several faces. *)
Definition whole_faces (vs : list pt) (fs : list (list Z)) : Prop :=
  forall f n x v, In f fs -> outward vs f n -> In x f -> In v vs -> dot n (minus v (at_index vs x)) = 0 -> In v (map (at_index vs) f).
(** The faces Polygon::Triangulate can handle: triangles, and convex polygons in their plane that are not too small. *)
Definition usable_face (vs : list pt) (f : list Z) : Prop := length f = 3%nat \/
  exists o U V q0 q1 rest, frame U V /\ spans (q0 :: q1 :: rest) /\ eps6 < dst q0 q1 /\ ccw_polygon (q0 :: q1 :: rest) /\ map (at_index vs) f = map (embed o U V) (q0 :: q1 :: rest).

(** A point of the hull on a supporting plane is in the hull of the vertices on that plane. *)
Lemma hull_facet vs ws (n : pt) h y : (forall v, In v vs -> dot n v <= h) -> (forall v, In v vs -> dot n v = h -> In v ws) -> in_hull vs y -> dot n y = h -> in_hull ws y.
Proof.
  intros LE WS I E. assert (H : dot n y < h \/ dot n y = h /\ in_hull ws y); [|destruct H as [H|[_ H]]; [lra|exact H]].
  apply (I (fun z => dot n z < h \/ dot n z = h /\ in_hull ws z)).
  - intros u v k U V K. assert (D : dot n (plus u (scale k (minus v u))) = (1 - k) * dot n u + k * dot n v) by (rewrite dot_plus_r, dot_scale_r, dot_minus_r; ring). rewrite D.
    destruct U as [U|[U U']], V as [V|[V V']].
    + left. destruct (Req_dec k 0) as [->|]; [lra|]. nra.
    + destruct (Req_dec k 1) as [->|K1]; [right; split; [lra|]; replace (plus u (scale 1 (minus v u))) with v by (apply vec_ext; gunf; cbn; ring); exact V'|left; nra].
    + destruct (Req_dec k 0) as [->|K1]; [right; split; [lra|]; replace (plus u (scale 0 (minus v u))) with u by (apply vec_ext; gunf; cbn; ring); exact U'|left; nra].
    + right. split; [rewrite U, V; ring|]. now apply hull_convex.
  - intros v V. specialize (LE v V). destruct (Req_dec (dot n v) h) as [Q|Q]; [right; split; [exact Q|]; apply hull_in; now apply WS|left; lra].
Qed.
(** A segment from inside all faces of a list to a point that is not crosses the plane of one of them first. *)
Lemma leaves (P : polyhedron R) x q : (forall f, In f (hf P) -> (3 <= length f)%nat /\ exists n, outward (hv P) f n) -> forall fs, incl fs (hf P) -> behind_all (hv P) fs x -> ~ behind_all (hv P) fs q ->
  exists k f n z, 0 <= k <= 1 /\ behind_all (hv P) fs (plus x (scale k (minus q x))) /\ In f fs /\ outward (hv P) f n /\ In z f /\ dot n (minus (plus x (scale k (minus q x))) (at_index (hv P) z)) = 0.
Proof.
  intros G. induction fs as [|f fs IH]; intros IC BX BQ; [exfalso; apply BQ; intros f n []|].
  destruct (G f (IC f (or_introl eq_refl))) as (L & n & O). assert (Z : exists z, In z f) by (destruct f as [|z f]; [cbn in L; lia|exists z; now left]). destruct Z as (z & Z).
  assert (FL : forall w, In w f -> dot n (at_index (hv P) w) = dot n (at_index (hv P) z)) by (intros w W; pose proof (flat _ _ _ O z w Z W) as E; rewrite dot_minus_r in E; lra).
  assert (ONE : forall y, (forall m w, outward (hv P) f m -> In w f -> dot m (minus y (at_index (hv P) w)) <= 0) <-> dot n (minus y (at_index (hv P) z)) <= 0).
  { intros y. split; [intros H; now apply H|]. intros H m w OM W. destruct (outward_unique P f n m L O OM) as (k & K & ->). rewrite dot_scale_l. rewrite dot_minus_r in *. rewrite (FL w W). nra. }
  assert (SPLIT : forall y, behind_all (hv P) (f :: fs) y <-> dot n (minus y (at_index (hv P) z)) <= 0 /\ behind_all (hv P) fs y).
  { intros y. split; [intros H; split; [apply (proj1 (ONE y)); intros m w OM W; now apply (H f m (or_introl eq_refl) OM)|intros g m GI; now apply (H g m (or_intror GI))]|]. intros (H1 & H2) g m [<-|GI] OM w W; [now apply (proj2 (ONE y) H1)|now apply (H2 g m GI OM)]. }
  apply SPLIT in BX as (X1 & X2).
  assert (CUT : forall k, 0 <= k <= 1 -> behind_all (hv P) fs (plus x (scale k (minus q x))) -> 0 < dot n (minus (plus x (scale k (minus q x))) (at_index (hv P) z)) ->
    exists k f0 n z, 0 <= k <= 1 /\ behind_all (hv P) (f :: fs) (plus x (scale k (minus q x))) /\ In f0 (f :: fs) /\ outward (hv P) f0 n /\ In z f0 /\ dot n (minus (plus x (scale k (minus q x))) (at_index (hv P) z)) = 0).
  { intros k K B0 POS. set (a := dot n (minus x (at_index (hv P) z))) in *. set (d := dot n (minus q x)). assert (LIN : forall k, dot n (minus (plus x (scale k (minus q x))) (at_index (hv P) z)) = a + k * d) by (intros k0; unfold a, d; rewrite !dot_minus_r, dot_plus_r, dot_scale_r, dot_minus_r; ring). rewrite LIN in POS.
    assert (K0 : 0 < k) by (destruct (Req_dec k 0) as [->|]; [lra|lra]). assert (D0 : 0 < d) by nra. set (t := - a / d). assert (T0 : 0 <= t) by (unfold t; apply Rmult_le_pos; [lra|left; now apply Rinv_0_lt_compat]).
    assert (TK : t * d = - a) by (unfold t; field; lra). assert (T1 : t < k) by nra. exists t, f, n, z. split; [lra|]. assert (ZE : dot n (minus (plus x (scale t (minus q x))) (at_index (hv P) z)) = 0) by (rewrite LIN, TK; lra). split; [|split; [now left|split; [exact O|split; [exact Z|exact ZE]]]].
    apply SPLIT. split; [lra|]. intros g m GI OM w W. pose proof (X2 g m GI OM w W) as A1. pose proof (B0 g m GI OM w W) as A2. rewrite dot_minus_r, dot_plus_r, dot_scale_r in A2 |- *. rewrite dot_minus_r in A1. set (e := dot m (minus q x)) in *. clearbody e. assert (t = t / k * k) by (field; lra). assert (0 <= t / k) by (apply Rmult_le_pos; [lra|left; now apply Rinv_0_lt_compat]). assert (t / k <= 1) by nra. rewrite H. nra. }
  destruct (classic (behind_all (hv P) fs q)) as [BF|BF].
  - assert (Q1 : plus x (scale 1 (minus q x)) = q) by (apply vec_ext; gunf; cbn; ring). apply (CUT 1); [lra|now rewrite Q1|]. rewrite Q1. apply Rnot_le_lt. intros H. apply BQ. apply SPLIT. now split.
  - destruct (IH (fun g GI => IC g (or_intror GI)) X2 BF) as (k & g & m & w & K & B & GI & OM & W & E).
    destruct (Rle_lt_dec (dot n (minus (plus x (scale k (minus q x))) (at_index (hv P) z))) 0) as [LE|LT]; [|now apply (CUT k)].
    exists k, g, m, w. split; [exact K|]. split; [apply SPLIT; now split|]. split; [now right|]. now split.
Qed.
(** The closest point of a usable face. *)
Lemma hull_map (o U V : pt) qs z : in_hull (map (embed o U V) qs) z <-> exists q, in_hull2 qs q /\ z = embed o U V q.
Proof.
  split.
  - intros I. apply (I (fun z => exists q, in_hull2 qs q /\ z = embed o U V q)).
    + intros a b k (p & Hp & ->) (q & Q & ->) K. exists (pl p (sc k (mi q p))). split; [intros A CV IA; apply CV; [exact K|now apply Hp|now apply Q]|]. unfold embed, pl, sc, mi, plus, scale, minus. apply vec_ext; cbn [vx vy vz x2 y2]; ring.
    + intros v IV. apply in_map_iff in IV as (q & <- & Q). exists q. split; [intros A _ IA; now apply IA|reflexivity].
  - intros (q & Q & ->) A CV IA. apply (Q (fun q => A (embed o U V q))).
    + intros a b t T HA HB. replace (embed o U V (pl a (sc t (mi b a)))) with (plus (embed o U V a) (scale t (minus (embed o U V b) (embed o U V a)))) by (unfold embed, pl, sc, mi, plus, scale, minus; apply vec_ext; cbn [vx vy vz x2 y2]; ring). now apply CV.
    + intros v IV. apply IA. now apply in_map.
Qed.
Lemma hull_triangle (a b c z : pt) : in_hull [a; b; c] z <-> in_triangle (Tri a b c) z.
Proof.
  split.
  - intros I. apply (I (in_triangle (Tri a b c))).
    + intros x y k (u & v & w & U0 & V0 & W0 & S & ->) (u' & v' & w' & U0' & V0' & W0' & S' & ->) K. exists ((1 - k) * u + k * u'), ((1 - k) * v + k * v'), ((1 - k) * w + k * w'). repeat split; try nra. apply vec_ext; gunf; cbn; ring.
    + intros v [<-|[<-|[<-|[]]]]; [exists 1, 0, 0|exists 0, 1, 0|exists 0, 0, 1]; repeat split; try lra; apply vec_ext; gunf; cbn; ring.
  - intros (u & v & w & U0 & V0 & W0 & S & ->) A CV IA. assert (HA : A a) by (apply IA; cbn; auto). assert (HB : A b) by (apply IA; cbn; auto). assert (HC : A c) by (apply IA; cbn; auto). cbn [tri_a tri_b tri_c].
    destruct (Req_dec w 1) as [->|W1]. { assert (u = 0) by lra. assert (v = 0) by lra. subst. replace (plus _ _) with c; [exact HC|]. apply vec_ext; gunf; cbn; ring. }
    assert (HM : A (plus a (scale (v / (1 - w)) (minus b a)))). { apply CV; [exact HA|exact HB|]. split; [apply Rmult_le_pos; [lra|left; apply Rinv_0_lt_compat; lra]|]. apply Rmult_le_reg_r with (1 - w); [lra|]. unfold Rdiv. rewrite Rmult_assoc, Rinv_l by lra. lra. }
    assert (HZ := CV _ _ w HM HC ltac:(lra)). match goal with |- A ?g => match type of HZ with A ?h => replace g with h; [exact HZ|] end end. replace u with (1 - v - w) by lra. apply vec_ext; gunf; cbn [vx vy vz]; field; lra.
Qed.
Lemma face_closest (P : polyhedron R) f n q : (3 <= length f)%nat -> outward (hv P) f n -> usable_face (hv P) f -> exists x, Poly_ClosestPoint (Hed_FacePolygon P f) q = Some x /\ nearest (in_hull (map (at_index (hv P)) f)) q x.
Proof.
  intros L O [L3|(o & U & V & q0 & q1 & rest & FR & SP & D & CC & E)].
  - destruct f as [|i [|j [|k [|l f]]]]; try discriminate. unfold Hed_FacePolygon. cbn [map]. rewrite !Vertex_at. pose proof (first_corner _ _ _ O) as FC. cbn [nth] in FC. set (a := at_index (hv P) i) in *. set (b := at_index (hv P) j) in *. set (c := at_index (hv P) k) in *.
    exists (Tri_ClosestPoint (Tri a b c) q). split; [reflexivity|]. destruct (C47_point (Tri a b c) q) as (I & M).
    { intros u v EQ. cbn [tri_a tri_b tri_c] in EQ. assert (HU : u * dot n (cross (minus b a) (minus c a)) = 0). { transitivity (dot n (cross (plus (scale u (minus b a)) (scale v (minus c a))) (minus c a))); [unfold cross; gunf; cbn [vx vy vz]; ring|]. rewrite EQ. unfold cross, origin. gunf. cbn. ring. }
      assert (HV : v * dot n (cross (minus b a) (minus c a)) = 0). { transitivity (dot n (cross (minus b a) (plus (scale u (minus b a)) (scale v (minus c a))))); [unfold cross; gunf; cbn [vx vy vz]; ring|]. rewrite EQ. unfold cross, origin. gunf. cbn. ring. }
      split; [apply Rmult_integral in HU as [|]|apply Rmult_integral in HV as [|]]; lra. }
    split; [now apply hull_triangle|]. intros z HZ. apply M. now apply hull_triangle.
  - destruct (C94_closest o U V q0 q1 rest q FR SP D CC) as (x & X & (N1 & N2) & _). exists x. split; [unfold Hed_FacePolygon; rewrite <- X; f_equal; exact E|]. rewrite E. split; [now apply hull_map|]. intros z HZ. apply N2. now apply hull_map.
Qed.
(** The best of the faces. *)
Lemma best_fold (P : polyhedron R) (q : pt) (g : list Z -> pt) fs : (forall f, In f fs -> Poly_ClosestPoint (Hed_FacePolygon P f) q = Some (g f)) ->
  let F := fun best f => match Poly_ClosestPoint (Hed_FacePolygon P f) q with None => best | Some x => match best with None => Some x | Some b => if Rltb (DistanceSq x q) (DistanceSq b q) then Some x else best end end in
  forall best, (best <> None \/ fs <> []) -> exists x, fold_left F fs best = Some x /\ (best = Some x \/ exists f, In f fs /\ x = g f) /\ (forall b, best = Some b -> dist x q <= dist b q) /\ forall f, In f fs -> dist x q <= dist (g f) q.
Proof.
  intros E F. assert (SQ : forall x : pt, DistanceSq x q = dist x q * dist x q) by (intros x; unfold dist; rewrite norm_sq; reflexivity).
  induction fs as [|f fs IH]; intros best NE; [destruct best as [b|]; [|destruct NE; contradiction]; exists b; cbn [fold_left]; split; [reflexivity|]; split; [now left|]; split; [intros b' E0; injection E0 as <-; lra|intros f []]|].
  cbn [fold_left]. assert (FE : exists y, F best f = Some y /\ (best = Some y \/ y = g f) /\ (forall b, best = Some b -> dist y q <= dist b q) /\ dist y q <= dist (g f) q).
  { unfold F. rewrite (E f (or_introl eq_refl)). destruct best as [b|].
    - rewrite !SQ. assert (0 <= dist (g f) q) by apply norm_pos. assert (0 <= dist b q) by apply norm_pos. destruct (Rltb_spec (dist (g f) q * dist (g f) q) (dist b q * dist b q)) as [A|A]; eexists; (split; [reflexivity|]); (split; [auto|]); split; try (intros b' E0; injection E0 as <-); nra.
    - exists (g f). split; [reflexivity|]. split; [auto|]. split; [discriminate|lra]. }
  destruct FE as (y & -> & FROM & B1 & B2). destruct (IH (fun f' I => E f' (or_intror I)) (Some y) ltac:(left; discriminate)) as (x & X & FX & XB & XM). exists x. split; [exact X|].
  specialize (XB y eq_refl). split; [|split].
  - destruct FX as [FX|(f' & I & ->)]; [injection FX as ->|right; exists f'; split; [now right|reflexivity]]. destruct FROM as [->| ->]; [now left|right; exists f; split; [now left|reflexivity]].
  - intros b EB. specialize (B1 b EB). lra.
  - intros f' [<-|I]; [lra|now apply XM].
Qed.
(** ClosestPointConvex of a point more than 1e-4 in front of some face is the nearest point of the solid; any other point is returned unchanged, also when it lies just outside. *)
Theorem C98_closest (P : polyhedron R) (q : pt) : convex_solid (hv P) (hf P) -> whole_faces (hv P) (hf P) -> (forall f, In f (hf P) -> usable_face (hv P) f) ->
  exists b, Hed_ClosestPointConvex P q = Some b /\ (grown_by P (1 / 10000) q -> b = q) /\ (in_hull (hv P) q -> b = q) /\ (~ grown_by P (1 / 10000) q -> nearest (in_hull (hv P)) q b).
Proof.
  intros S WF UF. pose proof S as (VA & C & NE & c & IC). destruct (C98_contains P q S) as (_ & G & HI). specialize (G (1 / 10000)). specialize (HI (1 / 10000) ltac:(lra)). fold (grown_by P (1 / 10000) q) in G.
  unfold Hed_ClosestPointConvex. rewrite nlit_R. change (IZR 1 / IZR (Z.pos 10000)) with (1 / 10000). destruct (Hed_ContainsConvex P q (1 / 10000)) eqn:EC.
  { exists q. split; [reflexivity|]. split; [auto|]. split; [auto|]. intros N. exfalso. apply N. now apply G. }
  assert (OUT : ~ in_hull (hv P) q) by (intros I; specialize (HI I); discriminate).
  assert (FC : forall f, In f (hf P) -> exists x, Poly_ClosestPoint (Hed_FacePolygon P f) q = Some x /\ nearest (in_hull (map (at_index (hv P)) f)) q x).
  { intros f F. destruct (VA f F) as (L & _). destruct (IC f F) as (n & O & _). exact (face_closest P f n q L O (UF f F)). }
  set (g := fun f => match Poly_ClosestPoint (Hed_FacePolygon P f) q with Some x => x | None => q end).
  assert (FG : forall f, In f (hf P) -> Poly_ClosestPoint (Hed_FacePolygon P f) q = Some (g f)) by (intros f F; unfold g; destruct (FC f F) as (x & -> & _); reflexivity).
  destruct (best_fold P q g (hf P) FG None (or_intror NE)) as (b & B & FROM & _ & MIN). exists b. split; [exact B|]. split; [intros H; apply G in H; discriminate|]. split; [intros H; contradiction|]. intros _.
  assert (NG : forall f, In f (hf P) -> nearest (in_hull (map (at_index (hv P)) f)) q (g f)) by (intros f F; destruct (FC f F) as (x & E & N); rewrite (FG f F) in E; injection E as ->; exact N).
  assert (SUB : forall f z, In f (hf P) -> in_hull (map (at_index (hv P)) f) z -> in_hull (hv P) z).
  { intros f z F I. apply I; [apply hull_convex|]. intros v IV. apply in_map_iff in IV as (x & <- & X). apply hull_in. destruct (VA f F) as (_ & _ & BD). exact (at_in (hv P) _ f x eq_refl BD X). }
  destruct FROM as [FROM|(f0 & F0 & ->)]; [discriminate|]. split; [apply (SUB f0); [exact F0|apply (NG f0 F0)]|].
  intros x X. assert (NB : ~ behind_all (hv P) (hf P) q) by (intros H; apply OUT; exact (solid_hull _ _ _ S H)).
  destruct (leaves P x q) with (fs := hf P) as (k & f & n & z & K & BH & F & O & Z & ON); [intros f F; destruct (VA f F) as (L & _); destruct (IC f F) as (n & O & _); split; [exact L|now exists n]|apply incl_refl|now apply hull_behind|exact NB|].
  set (y := plus x (scale k (minus q x))) in *. assert (YH : in_hull (hv P) y) by exact (solid_hull _ _ _ S BH).
  assert (YF : in_hull (map (at_index (hv P)) f) y).
  { apply (hull_facet (hv P) _ n (dot n (at_index (hv P) z))); [| |exact YH|rewrite dot_minus_r in ON; lra].
    - intros v V. pose proof (behind _ _ _ O z v Z V) as H. rewrite dot_minus_r in H. lra.
    - intros v V E. apply (WF f n z v F O Z V). rewrite dot_minus_r. lra. }
  apply Rle_trans with (dist y q); [apply Rle_trans with (dist (g f) q); [now apply MIN|now apply (NG f F)]|].
  unfold dist. replace (minus y q) with (scale (1 - k) (minus x q)) by (unfold y; apply vec_ext; gunf; cbn; ring). rewrite norm_scale, Rabs_pos_eq by lra. pose proof (norm_pos (minus x q)). nra.
Qed.
Print Assumptions C98_closest.
(** The hypotheses hold for the tetrahedron, and (2, 2, 2) is far outside it. *)
Lemma tetra_whole : whole_faces (hv tetra) (hf tetra).
Proof.
  intros f n x v F O X V E. destruct (outward_unit _ _ _ O) as (k & K & U & O'). assert (E' : dot (scale k n) (minus v (at_index (hv tetra) x)) = 0) by (rewrite dot_scale_l, E; ring).
  destruct tetra_at as (T0 & T1 & T2 & T3).
  destruct (tetra_normals f _ F O' U) as [(-> & N)|[(-> & N)|[(-> & N)|(-> & j & J & N)]]]; rewrite N in E'; cbn [map]; rewrite ?T0, ?T1, ?T2, ?T3; cbn [In] in X; (destruct X as [<-|[<-|[<-|[]]]]); rewrite ?T0, ?T1, ?T2, ?T3 in E';
    cbn [In hv tetra] in V; (destruct V as [<-|[<-|[<-|[<-|[]]]]]); unfold dot, minus in E'; cbn [vx vy vz] in E'; cbn [In]; first [auto; fail|exfalso; lra].
Qed.
Lemma tetra_hull q : in_hull (hv tetra) q -> 0 <= vz q /\ vx q + vy q + vz q <= 1.
Proof.
  intros I. apply (I (fun q => 0 <= vz q /\ vx q + vy q + vz q <= 1)).
  - intros x y k (X1 & X2) (Y1 & Y2) K. gunf. cbn [vx vy vz]. split; nra.
  - intros v V. cbn [In hv tetra] in V. destruct V as [<-|[<-|[<-|[<-|[]]]]]; cbn [vx vy vz]; lra.
Qed.
Lemma tetra_below (z eps : R) : - eps <= z <= 0 -> 0 <= eps -> grown_by tetra eps (V3 (1 / 4) (1 / 4) z).
Proof.
  intros Z E f n x F O U X. destruct tetra_at as (T0 & T1 & T2 & T3).
  destruct (tetra_normals f n F O U) as [(-> & ->)|[(-> & ->)|[(-> & ->)|(-> & j & J & ->)]]]; cbn [In] in X; (destruct X as [<-|[<-|[<-|[]]]]); rewrite ?T0, ?T1, ?T2, ?T3; unfold dot, minus; cbn [vx vy vz]; nra.
Qed.
Example C98_closest_witness : convex_solid (hv tetra) (hf tetra) /\ whole_faces (hv tetra) (hf tetra) /\ (forall f, In f (hf tetra) -> usable_face (hv tetra) f) /\ ~ grown_by tetra (1 / 10000) (V3 2 2 (-2)).
Proof.
  split; [exact tetra_solid|]. split; [exact tetra_whole|]. split; [intros f F; left; cbn in F; destruct F as [<-|[<-|[<-|[<-|[]]]]]; reflexivity|].
  intros G. destruct (solid_units tetra tetra_solid [0; 2; 1]%Z (or_introl eq_refl)) as (n & O & U). specialize (G _ n 0%Z (or_introl eq_refl) O U (or_introl eq_refl)).
  destruct (tetra_normals _ n (or_introl eq_refl) O U) as [(_ & ->)|[(E & _)|[(E & _)|(E & _)]]]; try discriminate. destruct tetra_at as (T0 & _). rewrite T0 in G. unfold dot, minus in G. cbn [vx vy vz] in G. lra.
Qed.
(** A point just outside is returned although it is not in the polyhedron. *)
Theorem C98_closest_refuted : exists (P : polyhedron R) q, convex_solid (hv P) (hf P) /\ ~ in_hull (hv P) q /\ Hed_ClosestPointConvex P q = Some q.
Proof.
  exists tetra, (V3 (1 / 4) (1 / 4) (- (1 / 20000))). split; [exact tetra_solid|]. split; [intros I; apply tetra_hull in I; cbn in I; lra|].
  destruct (C98_closest tetra (V3 (1 / 4) (1 / 4) (- (1 / 20000))) tetra_solid tetra_whole) as (b & E & H & _); [apply C98_closest_witness|]. rewrite E, H; [reflexivity|]. apply tetra_below; lra.
Qed.
Print Assumptions C98_closest_refuted.

(** ** Images and boxes *)
(** Transform(float3x3) is the affine transform without translation, so C101_transform speaks about it; the box is the smallest one around the solid. *)
Theorem C101_linear (P : polyhedron R) (m : mat3 R) : convex_solid (hv P) (hf P) -> 0 < volume (row0 m) (row1 m) (row2 m) -> let Q := Hed_Transform3 P m in
  convex_solid (hv Q) (hf Q) /\ hf Q = hf P /\ (forall q, in_hull (hv P) q <-> in_hull (hv Q) (apply m q)) /\ forall z, in_hull (hv Q) z -> exists q, in_hull (hv P) q /\ z = apply m q.
Proof.
  intros S D Q. assert (E : forall v, mulpos34 (M34 m origin) v = apply m v) by (intros v; unfold mulpos34, apply, origin, dot; rsimpl; apply vec_ext; cbn [lin34 trans34 vx vy vz]; gunf; ring).
  assert (EQ : Q = Hed_Transform34 P (M34 m origin)) by (unfold Q, Hed_Transform3, Hed_Transform34; f_equal; apply map_ext; intros v; rewrite E; reflexivity).
  destruct (C101_transform P (M34 m origin) S D) as (SQ & H & _). rewrite EQ. split; [exact SQ|]. split; [reflexivity|]. split; [intros q; rewrite <- E; apply H|].
  intros z I. apply (I (fun z => exists q, in_hull (hv P) q /\ z = apply m q)).
  - intros x y k (a & A & ->) (b & B & ->) K. exists (plus a (scale k (minus b a))). split; [now apply hull_convex|]. unfold apply, dot. apply vec_ext; gunf; cbn [vx vy vz]; ring.
  - intros v V. cbn [Hed_Transform34 hv] in V. apply in_map_iff in V as (w & <- & W). exists w. split; [now apply hull_in|apply E].
Qed.
Print Assumptions C101_linear.
Example C101_linear_witness : convex_solid (hv tetra) (hf tetra) /\ 0 < volume (V3 2 1 0) (V3 0 3 1) (V3 0 0 1).
Proof. split; [exact tetra_solid|]. unfold volume, dot, cross. cbn. lra. Qed.
Theorem C101_box (P : polyhedron R) : hv P <> [] -> exists b, Hed_MinimalEnclosingAABB P = Some b /\ (forall q, in_hull (hv P) q -> in_box b q) /\ forall c, (forall q, In q (hv P) -> in_box c q) -> forall q, in_box b q -> in_box c q.
Proof.
  intros NE. unfold Hed_MinimalEnclosingAABB. destruct (hv P) as [|p rest]; [contradiction|]. destruct (C92_extremes p rest origin) as (e & m & lo & hi & b & _ & _ & _ & _ & _ & _ & _ & _ & B & H1 & H2). exists b. now split.
Qed.
Print Assumptions C101_box.
(** Translate and Transform of a polygon map its convex hull onto the image. *)
Theorem C92_images (ps : list pt) (t : pt) (m : mat3 R) (a : mat34 R) (z : pt) :
  (in_hull (Poly_Translate ps t) z <-> exists q, in_hull ps q /\ z = plus q t) /\ (in_hull (Poly_Transform3 ps m) z <-> exists q, in_hull ps q /\ z = apply m q) /\
  (in_hull (Poly_Transform34 ps a) z <-> exists q, in_hull ps q /\ z = apply34 a q) /\
  (forall d, nth_error (Poly_Translate ps t) d = option_map (fun p => plus p t) (nth_error ps d) /\ nth_error (Poly_Transform3 ps m) d = option_map (apply m) (nth_error ps d) /\ nth_error (Poly_Transform34 ps a) d = option_map (apply34 a) (nth_error ps d)).
Proof.
  assert (G : forall g : pt -> pt, (forall x y k, g (plus x (scale k (minus y x))) = plus (g x) (scale k (minus (g y) (g x)))) -> in_hull (map g ps) z <-> exists q, in_hull ps q /\ z = g q).
  { intros g AF. split.
    - intros I. apply (I (fun z => exists q, in_hull ps q /\ z = g q)).
      + intros x y k (u & U & ->) (v & V & ->) K. exists (plus u (scale k (minus v u))). split; [now apply hull_convex|now rewrite AF].
      + intros v V. apply in_map_iff in V as (w & <- & W). exists w. split; [now apply hull_in|reflexivity].
    - intros (q & Q & ->) A CV IA. apply (Q (fun q => A (g q))); [intros x y k X Y K; rewrite AF; now apply CV|intros v V; apply IA; now apply in_map]. }
  split; [|split; [|split]].
  - apply (G (fun q => plus q t)). intros. apply vec_ext; gunf; cbn; ring.
  - apply (G (apply m)). intros. unfold apply, dot. apply vec_ext; gunf; cbn [vx vy vz]; ring.
  - apply (G (apply34 a)). intros. unfold apply34, apply, dot. apply vec_ext; gunf; cbn [vx vy vz]; ring.
  - intros d. repeat split; apply nth_error_map.
Qed.
Print Assumptions C92_images.
