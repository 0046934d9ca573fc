(** C111, continued: volumes of the converted solids, and the two-sided polyhedron of a polygon. *)
From Coq Require Import Reals Lra Psatz ZArith Bool List Permutation Lia.
From Verif Require Import Num NumR ScalarProofs Vec3Model GeoTypes GeoSpec GeoLemmas SatTheory AabbModel AabbSpec MatModel MatSpec MatProofs MatProofs2 SphereSpec ObbModel ObbProps PlaneModel PlaneSpec PlaneProps FrustumModel FrustumSpec FrustumProps PolyTopoModel PolyTopoSpec PolyTopoProofs PolyTopoProps PolyTopoProps3 PolygonModel PolyhedronModel PolyhedronSpec PolyhedronProofs PolyhedronProps PolyhedronProps4 PolyhedronProps5 PolyhedronProps6 ToHedModel ToHedProofs ToHedProps.
Import ListNotations.
Open Scope R_scope.
Ltac Zify.zify_post_hook ::= idtac.

(** ** Faces large enough for Polygon::NormalCCW *)
Lemma fm_lin o u : lin (fm o) u = plus (scale (vx u) (oaxis0 o)) (plus (scale (vy u) (oaxis1 o)) (scale (vz u) (oaxis2 o))).
Proof. unfold lin, fm, ofCols, mk3. cbn [lin34 row0 row1 row2]. gunf. apply vec_ext; cbn [vx vy vz]; ring. Qed.
Lemma fm_dot o u w : framed o -> dot (lin (fm o) u) (lin (fm o) w) = dot u w.
Proof.
  intros (U0 & U1 & U2 & O1 & O2 & O3). rewrite !fm_lin. unfold unitv, orth in *. rewrite !dot_plus_l, !dot_plus_r, !dot_scale_l, !dot_scale_r, U0, U1, U2, (dot_comm (oaxis1 o) (oaxis0 o)), (dot_comm (oaxis2 o) (oaxis0 o)), (dot_comm (oaxis2 o) (oaxis1 o)), O1, O2, O3. gunf. ring.
Qed.
Lemma fm_cross o u w : framed o -> norm (cross (lin (fm o) u) (lin (fm o) w)) = norm (cross u w).
Proof. intros F. unfold norm. f_equal. rewrite !cross_sq, !fm_dot by exact F. reflexivity. Qed.
Definition wide (v : pt) : Prop := 1 / 10000 < Rabs (vx v) \/ 1 / 10000 < Rabs (vy v) \/ 1 / 10000 < Rabs (vz v).
Lemma wide_norm v : wide v -> 1 / 10000 < norm v.
Proof.
  intros H. pose proof (norm_sq v) as N. pose proof (norm_pos v) as P. assert (S : forall x, 1 / 10000 < Rabs x -> 1 / 100000000 < x * x) by (intros x X; rewrite <- (Rabs_pos_eq (x * x)) by nra; rewrite Rabs_mult; nra).
  assert (1 / 100000000 < dot v v) by (gunf; destruct H as [H|[H|H]]; apply S in H; nra). nra.
Qed.
Definition wide_face (vs : list pt) (f : list Z) : Prop := wide (cross (minus (at_index vs (nth 1 f 0%Z)) (corner0 vs f)) (minus (at_index vs (nth 2 f 0%Z)) (corner0 vs f))).
Lemma world_measurable o vs fs f : framed o -> valid (length vs) fs -> In f fs -> wide_face vs f -> measurable (map (mulpos34 (fm o)) vs) f.
Proof.
  intros F V I W. right. destruct (V f I) as (L & _ & B). unfold corner0. rewrite !at_map by (apply B; apply nth_In; lia). rewrite !affine_minus, fm_cross by exact F. now apply wide_norm.
Qed.
Ltac wd := unfold wide_face, wide, corner0; cbn [nth]; coords.
Section Wide.
  Context (a b e g n d : R) (PA : 0 < a) (PB : 0 < b) (PE : 0 <= e) (PG : 0 <= g) (PD : 0 < d) (H1 : 1 / 10000 < 4 * a * b) (H2 : 1 / 10000 < 2 * a * d) (H3 : 1 / 10000 < 2 * b * d).
  Lemma grow : 0 <= a * g /\ 0 <= e * b /\ 0 <= e * g /\ 0 <= e * d /\ 0 <= g * d. Proof. repeat split; apply Rmult_le_pos; lra. Qed.
  Ltac one := wd; match goal with
    | |- 1 / 10000 < Rabs ?x \/ 1 / 10000 < Rabs ?y \/ 1 / 10000 < Rabs ?z =>
      first [ left; first [rewrite Rabs_pos_eq by lra; lra | rewrite Rabs_left1 by lra; lra]
            | right; left; first [rewrite Rabs_pos_eq by lra; lra | rewrite Rabs_left1 by lra; lra]
            | right; right; first [rewrite Rabs_pos_eq by lra; lra | rewrite Rabs_left1 by lra; lra] ] end.
  Lemma wide_up_box f : In f boxTable -> wide_face (up a b e g n d) f.
  Proof. destruct grow as (G1 & G2 & G3 & G4 & G5). unfold up. intros F. cbn [In boxTable] in F. destruct F as [<-|[<-|[<-|[<-|[<-|[<-|[]]]]]]]; one. Qed.
  Lemma wide_up_back f : In f backTable -> wide_face (up a b e g n d) f.
  Proof. destruct grow as (G1 & G2 & G3 & G4 & G5). unfold up. intros F. cbn [In backTable frustumTable map rev app] in F. destruct F as [<-|[<-|[<-|[<-|[<-|[<-|[]]]]]]]; one. Qed.
  Lemma wide_down f : In f frustumTable -> wide_face (down a b e g n d) f.
  Proof. destruct grow as (G1 & G2 & G3 & G4 & G5). unfold down. intros F. cbn [In frustumTable] in F. destruct F as [<-|[<-|[<-|[<-|[<-|[<-|[]]]]]]]; one. Qed.
End Wide.
(** ** The volume of a converted solid *)
Definition measured (P : polyhedron R) (v : R) : Prop := Hed_Volume P = Some v /\ forall eps, 0 <= eps -> Hed_FacesAreNondegeneratePlanar P eps = true.
Lemma world_volume o vs fs v : framed o -> 0 < volume (oaxis0 o) (oaxis1 o) (oaxis2 o) -> convex_solid vs fs -> (forall f, In f fs -> wide_face vs f) ->
  volume (oaxis0 o) (oaxis1 o) (oaxis2 o) * total (fun w => total (tetra6 vs origin w) (directed w)) fs = 6 * v -> measured (Hed (map (mulpos34 (fm o)) vs) fs) v.
Proof.
  intros F D CS W E. set (Q := Hed (map (mulpos34 (fm o)) vs) fs). assert (SQ : convex_solid (hv Q) (hf Q)) by (exact (proj1 (C101_transform (Hed vs fs) (fm o) CS ltac:(rewrite fm_det; exact D)))).
  assert (M : forall f, In f (hf Q) -> measurable (hv Q) f) by (intros f I; apply (world_measurable o vs fs); [exact F|exact (proj1 CS)|exact I|now apply W]).
  split; [|intros; now apply C101_planar]. destruct (C101_volume Q SQ M) as (u & EU & _ & S & _). rewrite EU. f_equal. specialize (S (mulpos34 (fm o) origin)). unfold Q in S. cbn [hv hf] in S. rewrite total_affine in S by exact (proj1 CS). rewrite fm_det, E in S. lra.
Qed.
(** The volume of the polyhedron of a box is the product of its sides when every side rectangle has an area above 1e-4. *)
Theorem C111_box_volume (o : obb R) (b : aabb R) : 
  (framed o -> volume (oaxis0 o) (oaxis1 o) (oaxis2 o) = 1 -> let r := orad o in 0 < vx r -> 0 < vy r -> 0 < vz r ->
   1 / 10000 < 4 * vx r * vy r -> 1 / 10000 < 4 * vx r * vz r -> 1 / 10000 < 4 * vy r * vz r -> measured (OBB_ToPolyhedron o) (8 * vx r * vy r * vz r)) /\
  (let s := minus (maxPoint b) (minPoint b) in 0 < vx s -> 0 < vy s -> 0 < vz s -> 1 / 10000 < vx s * vy s -> 1 / 10000 < vx s * vz s -> 1 / 10000 < vy s * vz s ->
   measured (AABB_ToPolyhedron b) (vx s * vy s * vz s)).
Proof.
  assert (MAIN : forall o, framed o -> volume (oaxis0 o) (oaxis1 o) (oaxis2 o) = 1 -> let r := orad o in 0 < vx r -> 0 < vy r -> 0 < vz r ->
   1 / 10000 < 4 * vx r * vy r -> 1 / 10000 < 4 * vx r * vz r -> 1 / 10000 < 4 * vy r * vz r -> measured (OBB_ToPolyhedron o) (8 * vx r * vy r * vz r)).
  { intros q F D r PX PY PZ A1 A2 A3. rewrite obb_vertices. fold r. apply world_volume; [exact F|rewrite D; lra|apply up_box_solid; lra|apply wide_up_box; lra|]. unfold up. rewrite (proj1 (trunc_volume _ _ _ _ _ _)), D. ring. }
  split; [apply MAIN|]. intros s PX PY PZ A1 A2 A3. rewrite box_as_obb. replace (vx s * vy s * vz s) with (8 * vx (orad (box_frame b)) * vy (orad (box_frame b)) * vz (orad (box_frame b))) by (unfold box_frame, s; cbn [orad]; gunf; cbn [vx vy vz]; field).
  apply MAIN; [apply box_framed|unfold box_frame, volume; cbn [oaxis0 oaxis1 oaxis2 vx vy vz]; ring| | | | | |]; unfold box_frame; cbn [orad]; fold s; gunf; cbn [vx vy vz]; lra.
Qed.
Print Assumptions C111_box_volume.
Example C111_box_volume_witness : let s := minus (maxPoint (Box (V3 1 1 1) (V3 2 3 4))) (minPoint (Box (V3 1 1 1) (V3 2 3 4))) in 0 < vx s /\ 1 / 10000 < vx s * vy s /\ 1 / 10000 < vx s * vz s /\ 1 / 10000 < vy s * vz s.
Proof. cbn. lra. Qed.
(** Frustum::Volume: the width times the height times the depth of an orthographic frustum; a difference of two pyramids for a perspective one. *)
Definition frustum_volume (f : frustum R) : R :=
  match ftype f with
  | PerspectiveFrustum => 4 / 3 * tan (fhw f / 2) * tan (fvh f / 2) * (ffar f ^ 3 - fnear f ^ 3)
  | _ => fhw f * fvh f * (ffar f - fnear f)
  end.
Theorem C111_frustum_volume (f : frustum R) : frustum_ok f -> fhand f <> FrustumHandednessInvalid ->
  let w := 2 * half_w f (fnear f) in let h := 2 * half_h f (fnear f) in let d := ffar f - fnear f in
  1 / 10000 < w * h -> 1 / 10000 < w * d -> 1 / 10000 < h * d -> measured (Frustum_ToPolyhedron f) (frustum_volume f) /\ Frustum_Volume f = Some (frustum_volume f).
Proof.
  intros K HD w h d A1 A2 A3. enough (M : measured (Frustum_ToPolyhedron f) (frustum_volume f)) by (split; [exact M|exact (proj1 M)]).
  unfold w, h, d in *. pose proof (depths f K) as DP. destruct (sizes f K) as (A & B & A' & B' & E & G). 
  assert (FV : 2 * (ffar f - fnear f) * (4 * half_w f (fnear f) * half_h f (fnear f) + 4 * half_w f (ffar f) * half_h f (ffar f) + 2 * half_w f (fnear f) * half_h f (ffar f) + 2 * half_w f (ffar f) * half_h f (fnear f)) = 6 * frustum_volume f).
  { unfold half_w, half_h, frustum_volume. destruct (ftype f); field. }
  destruct (fhand f) eqn:H; [contradiction| |].
  - rewrite (left_vertices f H). pose proof (eye_volume f K) as EV. rewrite H in EV. change (volume (oaxis0 (eye f)) (oaxis1 (eye f)) (oaxis2 (eye f)) = 1) in EV. apply world_volume; [now apply ok_framed|rewrite EV; lra|apply up_back_solid; try assumption; lra|apply wide_up_back; lra|].
    rewrite EV, <- FV. unfold left_vs, up. rewrite (proj1 (proj2 (trunc_volume _ _ _ _ _ _))). ring.
  - rewrite (right_vertices f H). assert (EV : volume (oaxis0 (mirror_eye f)) (oaxis1 (mirror_eye f)) (oaxis2 (mirror_eye f)) = 1).
    { change (volume (fright f) (fup f) (scale (-1) (ffront f)) = 1). replace (volume _ _ _) with (- volume (fright f) (fup f) (ffront f)) by (unfold volume; gunf; cbn [vx vy vz]; ring). rewrite (eye_volume f K), H. lra. }
    apply world_volume; [now apply mirror_framed|rewrite EV; lra|apply down_solid; try assumption; lra|apply wide_down; lra|].
    rewrite EV, <- FV. unfold right_vs, down. rewrite (proj2 (proj2 (trunc_volume _ _ _ _ _ _))). ring.
Qed.
Print Assumptions C111_frustum_volume.

(** ** Polygons and triangles *)
Lemma rev_iota n : map (fun i => (Z.of_nat n - 1 - Z.of_nat i)%Z) (seq 0 n) = rev (map Z.of_nat (seq 0 n)).
Proof.
  apply (nth_ext _ _ 0%Z 0%Z); [now rewrite rev_length, !map_length|]. intros i I. rewrite map_length, seq_length in I. rewrite rev_nth by (rewrite map_length, seq_length; exact I). rewrite map_length, seq_length.
  rewrite (nth_map_seq (fun i => (Z.of_nat n - 1 - Z.of_nat i)%Z)) by exact I. rewrite (nth_map_seq Z.of_nat) by lia. lia.
Qed.
(** The polyhedron of a polygon with at least three vertices has the same vertices and two faces, the polygon and the polygon backwards; its indices are valid, every edge has its partner, and Euler's formula holds. *)
Theorem C111_polygon (ps : list pt) : (3 <= length ps)%nat -> let P := Poly_ToPolyhedron ps in
  hv P = ps /\ map (Hed_FacePolygon P) (hf P) = [ps; rev ps] /\ valid (length ps) (hf P) /\ closed (hf P) /\
  FaceIndicesValid (length ps) (hf P) = true /\ IsClosed (hf P) = true /\ EulerFormulaHolds (length ps) (hf P) = true.
Proof.
  intros L P. set (n := length ps) in *. assert (HF : hf P = [iota n; rev (iota n)]) by (unfold P, Poly_ToPolyhedron; cbn [hf]; fold n; rewrite rev_iota; reflexivity).
  assert (V : valid n (hf P)).
  { rewrite HF. intros f F. assert (IF : f = iota n \/ f = rev (iota n)) by (cbn in F; intuition). assert (IN : forall x, In x (iota n) -> (0 <= x < Z.of_nat n)%Z) by (intros x X; now apply iota_in). pose proof (iota_nodup n L) as ND.
    destruct IF as [-> | ->]; rewrite ?rev_length, iota_length by exact L; (split; [exact L|]); split; [exact ND|exact IN|now apply NoDup_rev|intros x X; apply IN; now apply in_rev]. }
  assert (C : closed (hf P)).
  { rewrite HF. unfold closed, all_directed. cbn [flat_map]. rewrite app_nil_r. assert (PM : Permutation (directed (iota n) ++ directed (rev (iota n))) (directed (iota n) ++ map rv (directed (iota n)))) by (apply Permutation_app_head, directed_rev).
    set (s := fun i => ((i + 1) mod Z.of_nat n)%Z). assert (D : directed (iota n) = map (fun i => (i, s i)) (iota n)) by (apply directed_iota; exact L).
    assert (IE : forall a b, In (a, b) (directed (iota n)) <-> (0 <= a < Z.of_nat n)%Z /\ b = s a).
    { intros a b. rewrite D, in_map_iff. split; [intros (i & E & I); injection E as <- <-; split; [now apply iota_in|reflexivity]|intros (A & ->); exists a; split; [reflexivity|now apply iota_in]]. }
    assert (IR : forall a b, In (a, b) (map rv (directed (iota n))) <-> In (b, a) (directed (iota n))).
    { intros a b. rewrite in_map_iff. split; [intros ((x & y) & E & I); injection E as <- <-; exact I|intros I; exists (b, a); split; [reflexivity|exact I]]. }
    assert (ND : NoDup (directed (iota n))) by (rewrite D; apply (inj_family n L); intros i j _ _ E; now injection E).
    split.
    - apply (Permutation_NoDup (Permutation_sym PM)). apply nodup_app. split; [exact ND|]. split.
      + apply FinFun.Injective_map_NoDup; [|exact ND]. intros (x & y) (x' & y') E. injection E as -> ->. reflexivity.
      + intros (a & b) I J. apply IR in J. apply IE in I as (A & EB), J as (B & EA). pose proof (s_step n L a A) as SA. pose proof (s_step n L b B) as SB. cbv beta zeta in SA, SB. unfold s in *. rewrite <- EB in SA. rewrite <- EA in SB. lia.
    - intros a b I. apply (Permutation_in _ PM) in I. apply (Permutation_in _ (Permutation_sym PM)). apply in_app_iff in I. apply in_app_iff. destruct I as [I|I]; [right; now apply IR|left; now apply IR]. }
  split; [reflexivity|]. split.
  { rewrite HF. cbn [map]. assert (E : Hed_FacePolygon P (iota n) = ps). 
    { unfold Hed_FacePolygon, Hed_Vertex, P, Poly_ToPolyhedron. cbn [hv]. unfold iota. rewrite map_map. apply (nth_ext _ _ (V3 0 0 0) (V3 0 0 0)); [now rewrite map_length, seq_length|]. intros i I. rewrite map_length, seq_length in I. rewrite (nth_map_seq (fun x => nth (Z.to_nat (Z.of_nat x)) ps _)) by exact I. rewrite Nat2Z.id. reflexivity. }
    f_equal; [exact E|]. f_equal. unfold Hed_FacePolygon in *. rewrite map_rev, E. reflexivity. }
  split; [exact V|]. split; [exact C|]. split; [now apply C95_valid|]. split; [now apply (C95_closed_valid n)|].
  rewrite HF. unfold EulerFormulaHolds, NumEdges. cbn [fold_left length]. rewrite rev_length, iota_length by exact L. replace (0 + n + n)%nat with (n * 2)%nat by lia. rewrite Nat.div_mul by lia. apply Z.eqb_eq. lia.
Qed.
Print Assumptions C111_polygon.
(** The polyhedron of a triangle is closed and its vertices span the triangle. *)
Theorem C111_triangle (t : triangle R) : let P := Tri_ToPolyhedron t in (forall q, in_hull (hv P) q <-> in_triangle t q) /\ map (Hed_FacePolygon P) (hf P) = [[tri_a t; tri_b t; tri_c t]; [tri_c t; tri_b t; tri_a t]] /\
  valid 3 (hf P) /\ closed (hf P) /\ IsClosed (hf P) = true /\ EulerFormulaHolds 3 (hf P) = true.
Proof.
  intros P. destruct (C111_polygon (Tri_ToPolygon t) ltac:(cbn; lia)) as (HV & FP & V & C & _ & CL & EU). fold (Tri_ToPolyhedron t) in *. fold P in HV, FP, V, C, CL, EU.
  split; [|split; [exact FP|split; [exact V|split; [exact C|split; [exact CL|exact EU]]]]]. intros q. rewrite HV. unfold Tri_ToPolygon. destruct t as [a b c]. cbn [tri_a tri_b tri_c]. apply hull_triangle.
Qed.
Print Assumptions C111_triangle.
Example C111_frustum_witness : exists f : frustum R, frustum_ok f /\ fhand f <> FrustumHandednessInvalid /\ 1 / 10000 < 2 * half_w f (fnear f) * (2 * half_h f (fnear f)) /\
  1 / 10000 < 2 * half_w f (fnear f) * (ffar f - fnear f) /\ 1 / 10000 < 2 * half_h f (fnear f) * (ffar f - fnear f).
Proof.
  exists (Frustum OrthographicFrustum FrustumSpaceGL FrustumRightHanded (V3 0 0 0) (V3 0 0 1) (V3 0 1 0) 1 5 2 3 true true true true None None None).
  unfold frustum_ok, half_w, half_h, unitv, orth. cbn [ftype fhand ffront fup fnear ffar fhw fvh]. gunf. cbn [vx vy vz]. repeat split; try discriminate; lra.
Qed.
