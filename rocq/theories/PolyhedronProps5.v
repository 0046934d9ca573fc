(** C101, continued: the centre of mass and the check for flat faces. *)
From Coq Require Import Reals Lra Psatz ZArith Bool List Permutation Classical Lia.
From Verif Require Import Num NumR ScalarProofs Vec3Model GeoTypes GeoSpec GeoLemmas AabbSpec LineModel LineSpec LineProps MatSpec MatProofs MatProofs2 SphereSpec SatTheory PlaneModel PlaneSpec PlaneProps PolyTopoModel PolyTopoSpec PolyTopoProofs PolyTopoProps PolyTopoProps3 PolygonModel PolyhedronModel PolyhedronSpec PolyhedronProofs PolyhedronProps PolyhedronProps2 PolyhedronProps3 PolyhedronProps4.
Import ListNotations.
Open Scope R_scope.
Ltac Zify.zify_post_hook ::= idtac.

(** ** Centroid *)
(** Four times the first moment, along [w], of a tetrahedron with apex [q]: its six-fold volume times the sum of its corners. *)
Definition moment (vs : list pt) (q w : pt) (f : list Z) (e : Z * Z) : R := tetra6 vs q f e * dot w (plus (plus (plus (corner0 vs f) (at_index vs (fst e))) (at_index vs (snd e))) q).
Definition triangulated (fs : list (list Z)) : Prop := forall f, In f fs -> length f = 3%nat.
Lemma triangle_moment vs q w a b c : total (moment vs q w [a; b; c]) (directed [a; b; c]) = volume (minus (at_index vs a) q) (minus (at_index vs b) q) (minus (at_index vs c) q) * dot w (plus (plus (plus (at_index vs a) (at_index vs b)) (at_index vs c)) q).
Proof. change (directed [a; b; c]) with [(a, b); (b, c); (c, a)]. cbn [total]. unfold moment, tetra6, corner0. cbn [fst snd nth]. unfold volume. gunf. cbn [vx vy vz]. ring. Qed.
Lemma triangle_tetra vs q a b c : total (tetra6 vs q [a; b; c]) (directed [a; b; c]) = volume (minus (at_index vs a) q) (minus (at_index vs b) q) (minus (at_index vs c) q).
Proof. change (directed [a; b; c]) with [(a, b); (b, c); (c, a)]. cbn [total]. unfold tetra6, corner0. cbn [fst snd nth]. unfold volume. gunf. cbn [vx vy vz]. ring. Qed.
Lemma moment_free vs fs w q : closed fs -> triangulated fs -> total (fun f => total (moment vs q w f) (directed f)) fs = total (fun f => total (moment vs origin w f) (directed f)) fs.
Proof.
  intros C TR. set (g := fun a b => volume q (at_index vs a) (at_index vs b) * dot w (plus (plus q (at_index vs a)) (at_index vs b))).
  pose proof (closed_sum fs g C ltac:(intros a b _; unfold g, volume; gunf; cbn [vx vy vz]; ring)) as Z. unfold all_directed in Z. rewrite total_flat in Z.
  rewrite <- (Rminus_0_r (total (fun f => total (moment vs origin w f) (directed f)) fs)), <- Z, <- total_minus. apply total_ext. intros f F. specialize (TR f F). destruct f as [|a [|b [|c [|d l]]]]; try discriminate TR. rewrite !triangle_moment. change (directed [a; b; c]) with [(a, b); (b, c); (c, a)]. cbn [total fst snd]. unfold g, volume, origin. gunf. cbn [vx vy vz]. ring.
Qed.
Lemma many_vertices vs fs : convex_solid vs fs -> (4 <= length vs)%nat.
Proof.
  intros S. pose proof S as (V & _ & NE & c & IC). destruct fs as [|f fs]; [easy|]. assert (F : In f (f :: fs)) by now left. destruct (V f F) as (L & ND & B). destruct (IC f F) as (n & O & _). apply Nat.nlt_ge. intros Q.
  assert (X : In (nth 0 f 0%Z) f) by (apply nth_In; lia). pose proof (mean_behind _ _ f n _ S F O X) as M. rewrite (total_ext _ (fun _ => 0)) in M; [rewrite total_const in M; lra|]. intros v I.
  assert (IN : incl f (map Z.of_nat (seq 0 (length vs)))). { intros x IX. specialize (B x IX). apply in_map_iff. exists (Z.to_nat x). split; [lia|]. apply in_seq. lia. }
  apply (NoDup_length_incl ND) in IN; [|rewrite map_length, seq_length; lia]. apply In_nth with (d := origin) in I as (k & K & <-). assert (IK : In (Z.of_nat k) f) by (apply IN, in_map, in_seq; lia). pose proof (flat _ _ _ O _ _ X IK) as E. unfold at_index in E at 1. now rewrite Nat2Z.id in E.
Qed.
Lemma centre_inside (P : polyhedron R) : convex_solid (hv P) (hf P) -> in_hull (hv P) (Hed_ApproximateConvexCentroid P).
Proof.
  intros S. apply (solid_hull _ _ _ S). intros f n F O x X. left. pose proof (mean_behind _ _ f n x S F O X) as M. pose proof (many_vertices _ _ S) as LV. assert (LN : 0 < IZR (Z.of_nat (length (hv P)))) by (apply IZR_lt; lia).
  rewrite (total_ext _ (fun v => dot n v - dot n (at_index (hv P) x))) in M by (intros; apply dot_minus_r). rewrite (total_minus (fun v => dot n v) (fun _ => dot n (at_index (hv P) x))), total_const in M. rewrite dot_minus_r. unfold Hed_ApproximateConvexCentroid. change (V3 n0 n0 n0) with origin.
  replace (dot n (vdivs (fold_left vadd (hv P) origin) (nlit (Z.of_nat (length (hv P))) 1))) with (dot n (fold_left vadd (hv P) origin) / IZR (Z.of_nat (length (hv P)))) by (unfold vdivs; rsimpl; gunf; cbn [vx vy vz]; field; lra).
  rewrite fold_vadd_dot, dot_origin_r. set (t := total _ _) in *. set (k := IZR _) in *. set (d := dot n (at_index _ _)) in *. clearbody t k d. apply Rmult_lt_reg_l with k; [exact LN|]. field_simplify; lra.
Qed.
(** On a polyhedron of triangles ConvexCentroid is the centre of mass of the solid: the mean of the tetrahedra's centres, weighted by
    volume, whatever point the solid is cut up from. *)
Theorem C101_centroid (P : polyhedron R) : convex_solid (hv P) (hf P) -> triangulated (hf P) -> exists c, Hed_ConvexCentroid P = Some c /\
  forall q w, total (fun f => total (moment (hv P) q w f) (directed f)) (hf P) = 4 * dot w c * total (fun f => total (tetra6 (hv P) q f) (directed f)) (hf P).
Proof.
  intros S TR. pose proof S as (V & C & NE & _). pose proof (many_vertices _ _ S) as LV. destruct (C101_volume P S (fun f F => or_introl (TR f F))) as (v & _ & VP & SV & NN & _).
  pose proof (centre_inside P S) as CI. set (c0 := Hed_ApproximateConvexCentroid P) in *.
  assert (AC : forall fs acc, incl fs (hf P) -> let r := fold_left (fun acc f => centroidStrip c0 (Hed_FacePolygon P f) acc) fs acc in
    snd r = snd acc + total (fun f => total (tetra6 (hv P) c0 f) (directed f)) fs /\ forall w, 4 * dot w (fst r) = 4 * dot w (fst acc) + total (fun f => total (moment (hv P) c0 w f) (directed f)) fs).
  { induction fs as [|f fs IH]; intros acc IN; cbn [fold_left total]; [split; intros; ring|]. assert (F : In f (hf P)) by (apply IN; now left). assert (IN' : incl fs (hf P)) by (intros g G; apply IN; now right). pose proof (TR f F) as L3. destruct f as [|a [|b [|c [|d l]]]]; try discriminate L3.
    specialize (IH (centroidStrip c0 (Hed_FacePolygon P [a; b; c]) acc) IN') as (E1 & E2). cbv zeta in *. rewrite E1. split; [|intros w; rewrite E2, triangle_moment]; [rewrite triangle_tetra|];
    unfold Hed_FacePolygon; cbn [map centroidStrip fst snd]; rewrite !Vertex_at; rsimpl; rewrite Abs_R; toG; change (@Dot R Num_R) with dot; change (@Cross R Num_R) with cross;
    (replace (dot (minus (at_index (hv P) a) c0) (cross (minus (at_index (hv P) b) c0) (minus (at_index (hv P) c) c0))) with (volume (minus (at_index (hv P) a) c0) (minus (at_index (hv P) b) c0) (minus (at_index (hv P) c) c0)) by (unfold volume, cross; gunf; cbn [vx vy vz]; ring));
    (rewrite Rabs_pos_eq; [|apply (NN c0 [a; b; c] (b, c) CI F); right; now left]).
    - ring.
    - set (vv := volume _ _ _). clearbody vv. unfold smulv, vmuls, vadd. rsimpl. gunf. cbn [vx vy vz]. field. }
  destruct (AC (hf P) (origin, 0) (incl_refl _)) as (E1 & E2). cbv zeta in E1, E2. cbn [fst snd] in E1, E2. rewrite <- SV in E1. set (r := fold_left _ _ _) in *. exists (vdivs (fst r) (snd r)). split.
  - unfold Hed_ConvexCentroid. destruct (hv P) as [|x0 [|x1 [|x2 [|x3 l]]]] eqn:EV; cbn [length] in LV; try lia. reflexivity.
  - intros q w. rewrite (moment_free _ _ w q C TR), <- (moment_free _ _ w c0 C TR), <- SV. specialize (E2 w). rewrite dot_origin_r in E2.
    replace (dot w (vdivs (fst r) (snd r))) with (dot w (fst r) / snd r) by (unfold vdivs; rsimpl; gunf; cbn [vx vy vz]; field; lra). rewrite E1. replace (total _ _) with (4 * dot w (fst r)) by lra. field. lra.
Qed.
Print Assumptions C101_centroid.
Definition pyramid : polyhedron R := Hed [V3 1 1 0; V3 (-1) 1 0; V3 (-1) (-1) 0; V3 1 (-1) 0; V3 0 0 1] [[0; 3; 2; 1]; [0; 1; 4]; [1; 2; 4]; [2; 3; 4]; [3; 0; 4]]%Z.
Lemma pyramid_at : at_index (hv pyramid) 0 = V3 1 1 0 /\ at_index (hv pyramid) 1 = V3 (-1) 1 0 /\ at_index (hv pyramid) 2 = V3 (-1) (-1) 0 /\ at_index (hv pyramid) 3 = V3 1 (-1) 0 /\ at_index (hv pyramid) 4 = V3 0 0 1.
Proof. repeat split. Qed.
Lemma pyramid_valid : valid 5 (hf pyramid). Proof. apply C95_valid. reflexivity. Qed.
Lemma pyramid_closed : closed (hf pyramid). Proof. apply (C95_closed_valid 5); [exact pyramid_valid|reflexivity]. Qed.
Lemma pyramid_solid : convex_solid (hv pyramid) (hf pyramid).
Proof.
  destruct pyramid_at as (T0 & T1 & T2 & T3 & T4). split; [|split; [|split; [discriminate|]]].
  - exact pyramid_valid.
  - exact pyramid_closed.
  - exists (V3 0 0 (1/8)). intros f F. destruct F as [<-|[<-|[<-|[<-|[<-|[]]]]]].
    + exists (V3 0 0 (-1)). split; [|intros x X; repeat (destruct X as [<-|X]); try contradiction; rewrite ?T0, ?T1, ?T2, ?T3; gunf; cbn; lra]. split.
      * intros x y X Y. repeat (destruct X as [<-|X]); try contradiction; repeat (destruct Y as [<-|Y]); try contradiction; rewrite ?T0, ?T1, ?T2, ?T3; gunf; cbn; lra.
      * intros a b x I X. change (directed [0; 3; 2; 1]%Z) with [(0, 3); (3, 2); (2, 1); (1, 0)]%Z in I. cbn [In] in I. repeat (destruct I as [I|I]; [injection I as <- <-; repeat (destruct X as [<-|X]); try contradiction; rewrite ?T0, ?T1, ?T2, ?T3; unfold cross; gunf; cbn; lra|]). contradiction.
      * cbn [nth]. rewrite T0, T3, T2. unfold cross. gunf. cbn. lra.
      * intros x v X V. repeat (destruct X as [<-|X]); try contradiction; cbn [In hv pyramid] in V; repeat (destruct V as [<-|V]); try contradiction; rewrite ?T0, ?T1, ?T2, ?T3; gunf; cbn; lra.
    + exists (cross (minus (at_index (hv pyramid) 1) (at_index (hv pyramid) 0)) (minus (at_index (hv pyramid) 4) (at_index (hv pyramid) 0))). split; [apply outward_triangle|]; rewrite ?T0, ?T1, ?T2, ?T3, ?T4.
      * intros E. apply (f_equal (fun v => vx v + vy v + 2 * vz v)) in E. unfold cross, origin in E. gunf. cbn in E. lra.
      * intros v V. cbn [In hv pyramid] in V. repeat (destruct V as [<-|V]); try contradiction; unfold cross; gunf; cbn; lra.
      * intros v V. repeat (destruct V as [<-|V]); try contradiction; rewrite ?T0, ?T1, ?T2, ?T3, ?T4; unfold cross; gunf; cbn; lra.
    + exists (cross (minus (at_index (hv pyramid) 2) (at_index (hv pyramid) 1)) (minus (at_index (hv pyramid) 4) (at_index (hv pyramid) 1))). split; [apply outward_triangle|]; rewrite ?T0, ?T1, ?T2, ?T3, ?T4.
      * intros E. apply (f_equal (fun v => vx v + vy v + 2 * vz v)) in E. unfold cross, origin in E. gunf. cbn in E. lra.
      * intros v V. cbn [In hv pyramid] in V. repeat (destruct V as [<-|V]); try contradiction; unfold cross; gunf; cbn; lra.
      * intros v V. repeat (destruct V as [<-|V]); try contradiction; rewrite ?T0, ?T1, ?T2, ?T3, ?T4; unfold cross; gunf; cbn; lra.
    + exists (cross (minus (at_index (hv pyramid) 3) (at_index (hv pyramid) 2)) (minus (at_index (hv pyramid) 4) (at_index (hv pyramid) 2))). split; [apply outward_triangle|]; rewrite ?T0, ?T1, ?T2, ?T3, ?T4.
      * intros E. apply (f_equal (fun v => vx v + vy v + 2 * vz v)) in E. unfold cross, origin in E. gunf. cbn in E. lra.
      * intros v V. cbn [In hv pyramid] in V. repeat (destruct V as [<-|V]); try contradiction; unfold cross; gunf; cbn; lra.
      * intros v V. repeat (destruct V as [<-|V]); try contradiction; rewrite ?T0, ?T1, ?T2, ?T3, ?T4; unfold cross; gunf; cbn; lra.
    + exists (cross (minus (at_index (hv pyramid) 0) (at_index (hv pyramid) 3)) (minus (at_index (hv pyramid) 4) (at_index (hv pyramid) 3))). split; [apply outward_triangle|]; rewrite ?T0, ?T1, ?T2, ?T3, ?T4.
      * intros E. apply (f_equal (fun v => vx v + vy v + 2 * vz v)) in E. unfold cross, origin in E. gunf. cbn in E. lra.
      * intros v V. cbn [In hv pyramid] in V. repeat (destruct V as [<-|V]); try contradiction; unfold cross; gunf; cbn; lra.
      * intros v V. repeat (destruct V as [<-|V]); try contradiction; rewrite ?T0, ?T1, ?T2, ?T3, ?T4; unfold cross; gunf; cbn; lra.
Qed.
Lemma strip_step c0 a b c l s t k : Rabs (volume (minus a c0) (minus b c0) (minus c c0)) = k -> centroidStrip c0 (a :: b :: c :: l) (s, t) = centroidStrip c0 (b :: c :: l) (plus s (scale (k / 4) (plus (plus (plus a b) c) c0)), t + k).
Proof.
  intros E. cbn [centroidStrip fst snd]. rewrite Abs_R. toG. rsimpl. change (@Dot R Num_R) with dot. change (@Cross R Num_R) with cross.
  replace (dot (minus a c0) (cross (minus b c0) (minus c c0))) with (volume (minus a c0) (minus b c0) (minus c c0)) by (unfold volume, cross; gunf; cbn [vx vy vz]; ring). rewrite E. replace (plus s _) with (plus s (scale (k / 4) (plus (plus (plus a b) c) c0))); [reflexivity|]. unfold smulv, vmuls. rsimpl. apply vec_ext; gunf; cbn [vx vy vz]; field.
Qed.
Lemma strip_end (c0 b c : pt) acc : centroidStrip c0 [b; c] acc = acc. Proof. reflexivity. Qed.
Lemma vy_plus (a b : pt) : vy (plus a b) = vy a + vy b. Proof. reflexivity. Qed.
Lemma vy_scale k (a : pt) : vy (scale k a) = k * vy a. Proof. reflexivity. Qed.
Lemma vy_divs (a : pt) k : vy (vdivs a k) = vy a * (1 / k). Proof. reflexivity. Qed.
Ltac strip k := rewrite (strip_step _ _ _ _ _ _ _ k) by (unfold volume; gunf; cbn [vx vy vz]; first [rewrite Rabs_pos_eq by lra | rewrite Rabs_left1 by lra]; lra).
(** With a four-sided face the centroid is wrong: the square pyramid is symmetric about its axis, but the point returned is off it.  The
    loop uses the triangles (v0 v1 v2) and (v1 v2 v3) of the face, which overlap. *)
Theorem C101_centroid_refuted : exists (P : polyhedron R) c, convex_solid (hv P) (hf P) /\ Hed_ConvexCentroid P = Some c /\
  total (fun f => total (moment (hv P) origin (V3 0 1 0) f) (directed f)) (hf P) = 0 /\ vy c < 0.
Proof.
  assert (C0 : Hed_ApproximateConvexCentroid pyramid = V3 0 0 (1 / 5)). { unfold Hed_ApproximateConvexCentroid. cbn [hv pyramid fold_left length Z.of_nat Pos.of_succ_nat Pos.succ]. unfold vdivs, vadd. rsimpl. apply vec_ext; cbn [vx vy vz]; lra. }
  exists pyramid. eexists. split; [exact pyramid_solid|]. split; [reflexivity|]. destruct pyramid_at as (T0 & T1 & T2 & T3 & T4). split.
  - cbn [hf pyramid total]. rewrite !triangle_moment. change (directed [0; 3; 2; 1]%Z) with [(0, 3); (3, 2); (2, 1); (1, 0)]%Z. cbn [total]. unfold moment, tetra6, corner0. cbn [fst snd nth]. fold pyramid. change (Hed [V3 1 1 0; V3 (-1) 1 0; V3 (-1) (-1) 0; V3 1 (-1) 0; V3 0 0 1] _) with pyramid. 
    change [V3 1 1 0; V3 (-1) 1 0; V3 (-1) (-1) 0; V3 1 (-1) 0; V3 0 0 1] with (hv pyramid). rewrite T0, T1, T2, T3, T4. unfold volume, origin. gunf. cbn [vx vy vz]. lra.
  - rewrite C0. cbn [hf pyramid fold_left]. unfold Hed_FacePolygon. cbn [map]. rewrite !Vertex_at. change (hv _) with (hv pyramid). rewrite T0, T1, T2, T3, T4. clear. change (V3 n0 n0 n0, n0) with (origin, 0).
    strip (4 / 5). strip (4 / 5). rewrite strip_end. strip (8 / 5). rewrite strip_end. strip (8 / 5). rewrite strip_end. strip (8 / 5). rewrite strip_end. strip (8 / 5). rewrite strip_end.
    cbn [fst snd]. rewrite vy_divs, !vy_plus, !vy_scale, !vy_plus. unfold origin. cbn [vy]. lra.
Qed.
Print Assumptions C101_centroid_refuted.
Example C101_centroid_witness : convex_solid (hv tetra) (hf tetra) /\ triangulated (hf tetra).
Proof. split; [exact tetra_solid|]. intros f F. cbn in F. destruct F as [<-|[<-|[<-|[<-|[]]]]]; reflexivity. Qed.

(** ** Flat faces *)
(** FacesAreNondegeneratePlanar accepts every convex solid whose normals can be computed, with any non-negative tolerance, and rejects a
    polyhedron with a face of fewer than three vertices or one whose triangle has no area. *)
Theorem C101_planar (P : polyhedron R) eps : convex_solid (hv P) (hf P) -> (forall f, In f (hf P) -> measurable (hv P) f) -> 0 <= eps -> Hed_FacesAreNondegeneratePlanar P eps = true.
Proof.
  intros S M E. pose proof S as (V & _). unfold Hed_FacesAreNondegeneratePlanar. apply forallb_forall. intros f F. destruct (V f F) as (L & _). destruct (solid_units P S f F) as (n & O & U). rewrite !andb_true_iff. repeat split.
  - unfold big. now apply Nat.leb_le.
  - rewrite (poly_area P f n O U L (M f F)). pose proof (area2_pos P f n O L) as A. rsimpl. apply Rltb_true. lra.
  - destruct (Nat.leb 4 (length f)); [|reflexivity]. destruct (face_plane P f n L O) as (pl & k & -> & K & _ & _ & HH). apply forallb_forall. intros p I. unfold Hed_FacePolygon in I. apply in_map_iff in I as (y & <- & Y). unfold Plane_Distance. change (@Plane_SignedDistance R Num_R) with height. rewrite Vertex_at, (HH _ y Y), Abs_R. rsimpl. apply negb_true_iff, Rltb_false.
    replace (k * dot n (minus (at_index (hv P) y) (at_index (hv P) y))) with 0 by (gunf; cbn [vx vy vz]; ring). rewrite Rabs_R0. exact E.
Qed.
Print Assumptions C101_planar.
Example C101_planar_witness : Hed_FacesAreNondegeneratePlanar tetra 0 = true. Proof. exact (C101_planar tetra 0 tetra_solid tetra_measurable (Rle_refl 0)). Qed.
Theorem C101_planar_reject (P : polyhedron R) eps f : In f (hf P) -> (length f < 3)%nat \/ (exists a b c, f = [a; b; c] /\ cross (minus (at_index (hv P) b) (at_index (hv P) a)) (minus (at_index (hv P) c) (at_index (hv P) a)) = origin) -> Hed_FacesAreNondegeneratePlanar P eps = false.
Proof.
  intros F B. apply not_true_iff_false. intros H. unfold Hed_FacesAreNondegeneratePlanar in H. rewrite forallb_forall in H. specialize (H f F). rewrite !andb_true_iff in H. destruct H as ((H1 & H2) & _). unfold big in H1. apply Nat.leb_le in H1. destruct B as [B|(a & b & c & -> & E)]; [lia|]. revert H2. rsimpl. rewrite Rltb_true. intros H2.
  unfold Poly_Area, Hed_FacePolygon in H2. cbn [map] in H2. rewrite !Vertex_at in H2. set (A := at_index (hv P) a) in *. set (B := at_index (hv P) b) in *. set (C := at_index (hv P) c) in *. destruct (Poly_NormalCCW [A; B; C]) as [n|]; [|now apply Rlt_irrefl in H2].
  assert (Z : crossSum (V3 n0 n0 n0) (last [A; B; C] A) [A; B; C] = origin) by (rewrite <- E; cbn [last crossSum]; unfold vadd, Cross, cross; rsimpl; apply vec_ext; gunf; cbn [vx vy vz]; ring).
  rewrite Z in H2. change (@Dot R Num_R) with dot in H2. rewrite dot_origin_r, Abs_R, Rabs_R0 in H2. revert H2. rsimpl. lra.
Qed.
Print Assumptions C101_planar_reject.
