(** C101: volume, surface area, convexity test, orientation and affine images of a convex polyhedron. *)
From Coq Require Import Reals Lra Psatz ZArith Bool List Permutation Classical Lia.
From Verif Require Import Num NumR ScalarProofs Vec3Model GeoTypes GeoSpec GeoLemmas AabbSpec LineModel LineSpec LineProps MatSpec MatProofs MatProofs2 SphereSpec SatTheory PlaneModel PlaneSpec PlaneProps PolyTopoModel PolyTopoSpec PolyTopoProofs PolyTopoProps PolyTopoProps3 PolygonModel PolyhedronModel PolyhedronSpec PolyhedronProofs PolyhedronProps PolyhedronProps2 PolyhedronProps3.
Import ListNotations.
Open Scope R_scope.
Ltac Zify.zify_post_hook ::= idtac.

(** ** Specification: six times the signed volume of the tetrahedra from [q] to the fan triangles of the faces; the area of the fan *)
Definition corner0 (vs : list pt) (f : list Z) : pt := at_index vs (nth 0 f 0%Z).
Definition tetra6 (vs : list pt) (q : pt) (f : list Z) (e : Z * Z) : R := volume (minus (corner0 vs f) q) (minus (at_index vs (fst e)) q) (minus (at_index vs (snd e)) q).
Definition fan_triangle2 (vs : list pt) (f : list Z) (e : Z * Z) : R := norm (cross (minus (at_index vs (fst e)) (corner0 vs f)) (minus (at_index vs (snd e)) (corner0 vs f))).
(** A face whose normal Polygon::NormalCCW can compute: a triangle, or a first corner that is not too small. *)
Definition measurable (vs : list pt) (f : list Z) : Prop :=
  length f = 3%nat \/ 1 / 10000 < norm (cross (minus (at_index vs (nth 1 f 0%Z)) (corner0 vs f)) (minus (at_index vs (nth 2 f 0%Z)) (corner0 vs f))).

(** ** Sums over a face *)
Lemma total_scale {A : Type} k (g : A -> R) l : total (fun x => k * g x) l = k * total g l.
Proof. induction l as [|x l IH]; cbn; [ring|]. rewrite IH. ring. Qed.
Lemma total_plus {A : Type} (g h : A -> R) l : total (fun x => g x + h x) l = total g l + total h l.
Proof. induction l as [|x l IH]; cbn; [ring|]. rewrite IH. ring. Qed.
Lemma loop_zero (g : Z -> R) f : total (fun e => g (snd e) - g (fst e)) (directed f) = 0.
Proof.
  rewrite (total_minus (fun e : Z * Z => g (snd e)) (fun e => g (fst e))). rewrite <- (total_map snd g), <- (total_map fst g), map_fst_directed, (total_perm g _ _ (map_snd_directed f)). ring.
Qed.
Lemma loop_shift (p : Z -> pt) (w q : pt) f : total (fun e => dot w (cross (minus (p (fst e)) q) (minus (p (snd e)) q))) (directed f) = total (fun e => dot w (cross (p (fst e)) (p (snd e)))) (directed f).
Proof.
  pose proof (loop_zero (fun x => dot w (cross q (p x))) f) as Z. rewrite <- (Rplus_0_r (total _ (directed f))), <- Z, <- total_plus. apply total_ext. intros (a & b) _. cbn [fst snd]. unfold cross. gunf. cbn [vx vy vz]. ring.
Qed.
Lemma crossSum_total (p : Z -> pt) w : forall l acc a, dot w (crossSum acc (p a) (map p l)) = dot w acc + total (fun e => dot w (cross (p (fst e)) (p (snd e)))) (edgesFrom a l).
Proof.
  induction l as [|b l IH]; intros acc a; cbn [map crossSum edgesFrom total]; [ring|]. rewrite IH. toG. change (@Cross R Num_R) with cross. rewrite dot_plus_r. cbn [fst snd]. ring.
Qed.
Lemma last_map (p : Z -> pt) l x : last (map p l) (p x) = p (last l x).
Proof. induction l as [|y l IH]; [reflexivity|]. cbn [map]. destruct l as [|z l]; [reflexivity|]. exact IH. Qed.
Lemma crossSum_face (p : Z -> pt) w x l : dot w (crossSum origin (last (map p (x :: l)) (p x)) (map p (x :: l))) = total (fun e => dot w (cross (p (fst e)) (p (snd e)))) (directed (x :: l)).
Proof.
  rewrite last_map, crossSum_total, dot_origin_r, Rplus_0_l. apply total_perm. exact (faceEdges_perm (x :: l)).
Qed.
Lemma newell_total (p : Z -> pt) w : forall l acc a, dot w (newell acc (p a) (map p l)) = dot w acc + total (fun e => dot w (cross (p (fst e)) (p (snd e)))) (edgesFrom a l)
   - total (fun e => dot w (V3 (vy (p (snd e)) * vz (p (snd e))) (vz (p (snd e)) * vx (p (snd e))) (vx (p (snd e)) * vy (p (snd e)))) - dot w (V3 (vy (p (fst e)) * vz (p (fst e))) (vz (p (fst e)) * vx (p (fst e))) (vx (p (fst e)) * vy (p (fst e))))) (edgesFrom a l).
Proof.
  induction l as [|b l IH]; intros acc a; cbn [map newell edgesFrom total]; [ring|]. rewrite IH. cbn [fst snd]. rsimpl. unfold cross. gunf. cbn [vx vy vz]. ring.
Qed.
Lemma newell_face (p : Z -> pt) w x l : dot w (newell origin (last (map p (x :: l)) (p x)) (map p (x :: l))) = total (fun e => dot w (cross (p (fst e)) (p (snd e)))) (directed (x :: l)).
Proof.
  rewrite last_map, newell_total, dot_origin_r, Rplus_0_l. pose proof (faceEdges_perm (x :: l)) as PE. change (faceEdges (x :: l)) with (edgesFrom (last (x :: l) x) (x :: l)) in PE.
  rewrite (total_perm _ _ _ PE). rewrite (total_perm (fun e => dot w (V3 (vy (p (snd e)) * vz (p (snd e))) (vz (p (snd e)) * vx (p (snd e))) (vx (p (snd e)) * vy (p (snd e)))) - dot w (V3 (vy (p (fst e)) * vz (p (fst e))) (vz (p (fst e)) * vx (p (fst e))) (vx (p (fst e)) * vy (p (fst e))))) _ _ PE).
  rewrite (loop_zero (fun i => dot w (V3 (vy (p i) * vz (p i)) (vz (p i) * vx (p i)) (vx (p i) * vy (p i)))) (x :: l)). apply Rminus_0_r.
Qed.

(** ** One face *)
Section Face.
  Context (P : polyhedron R) (f : list Z) (n : pt) (O : outward (hv P) f n) (U : unitv n) (L : (3 <= length f)%nat).
  Let at_ := at_index (hv P).
  Let v0 := corner0 (hv P) f.
  Let term (e : Z * Z) := dot n (cross (minus (at_ (fst e)) v0) (minus (at_ (snd e)) v0)).
  Lemma first_in : In (nth 0 f 0%Z) f. Proof. apply nth_In. lia. Qed.
  Lemma term_pos e : In e (directed f) -> 0 <= term e.
  Proof.
    destruct e as (a & b). intros I. pose proof (left_of_edges _ _ _ O a b (nth 0 f 0%Z) I first_in) as H. unfold term, v0, corner0, at_. cbn [fst snd]. set (x := at_index (hv P) a) in *. set (y := at_index (hv P) b) in *. set (z := at_index (hv P) (nth 0 f 0%Z)) in *.
    replace (dot n (cross (minus x z) (minus y z))) with (dot n (cross (minus y x) (minus z x))) by (unfold cross; gunf; cbn [vx vy vz]; ring). exact H.
  Qed.
  Lemma term_cross e : In e (directed f) -> cross (minus (at_ (fst e)) v0) (minus (at_ (snd e)) v0) = scale (term e) n.
  Proof.
    destruct e as (a & b). intros I. apply directed_vertex in I as (A & B). unfold term, v0, corner0, at_. cbn [fst snd]. pose proof first_in as F.
    pose proof (cross_normal n _ _ (outward_nz _ _ _ O) (flat _ _ _ O _ a F A) (flat _ _ _ O _ b F B)) as E. unfold unitv in U. rewrite U in E. rewrite E at 1. f_equal. field.
  Qed.
  Lemma term_norm e : In e (directed f) -> term e = fan_triangle2 (hv P) f e.
  Proof. intros I. unfold fan_triangle2. fold at_ v0. rewrite term_cross by exact I. unfold norm. rewrite dot_scale_l, dot_scale_r. unfold unitv in U. rewrite U. replace (term e * (term e * 1)) with (term e * term e) by ring. rewrite sqrt_square; [reflexivity|now apply term_pos]. Qed.
  Lemma first_term : exists e, In e (directed f) /\ term e = dot n (cross (minus (at_ (nth 1 f 0%Z)) v0) (minus (at_ (nth 2 f 0%Z)) v0)) /\ 0 < term e.
  Proof.
    exists (nth 1 f 0%Z, nth 2 f 0%Z). split; [|split; [reflexivity|exact (first_corner _ _ _ O)]]. destruct f as [|a [|b [|c l]]]; cbn [length] in L; try lia. rewrite directed_cons. cbn. right. now left.
  Qed.
  Let area2 := total term (directed f).
  Lemma area2_pos : 0 < area2.
  Proof. destruct first_term as (e & I & _ & Q). apply (total_pos _ _ e); [exact term_pos|exact I|exact Q]. Qed.
  Lemma sum_dot w : total (fun e => dot w (cross (at_ (fst e)) (at_ (snd e)))) (directed f) = dot w n * area2.
  Proof.
    rewrite <- (loop_shift at_ w v0 f). unfold area2. rewrite <- total_scale. apply total_ext. intros e I. rewrite term_cross by exact I. rewrite dot_scale_r. ring.
  Qed.
  Lemma tetra_term q e : In e (directed f) -> tetra6 (hv P) q f e = - dot n (minus q v0) * term e.
  Proof.
    intros I. unfold tetra6. fold v0. change (at_index (hv P)) with at_. transitivity (dot (minus v0 q) (cross (minus (at_ (fst e)) v0) (minus (at_ (snd e)) v0))); [unfold volume, cross; gunf; cbn [vx vy vz]; ring|].
    rewrite term_cross by exact I. rewrite dot_scale_r, dot_comm. gunf. cbn [vx vy vz]. ring.
  Qed.
  Lemma tetra_sum q : total (tetra6 (hv P) q f) (directed f) = - dot n (minus q v0) * area2.
  Proof. unfold area2. rewrite <- total_scale. apply total_ext. intros e I. now apply tetra_term. Qed.
  Lemma poly_normal : measurable (hv P) f -> Poly_NormalCCW (Hed_FacePolygon P f) = Some n.
  Proof.
    intros M. destruct (face_plane_unit P f n L O U) as (pl & E & PN & _). unfold Hed_FacePlane in E. unfold measurable, corner0 in M. destruct f as [|a [|b [|c l]]]; cbn [length] in L; try lia. unfold Hed_FacePolygon in *. cbn [map] in *. injection E as E. destruct l as [|d l].
    - cbn [map]. unfold Poly_NormalCCW. cbn [Poly_PlaneCCW option_map]. rewrite E. now rewrite PN.
    - destruct M as [M|M]; [discriminate|]. cbn [nth] in M. cbn [map]. unfold Poly_NormalCCW. cbn [Poly_PlaneCCW option_map planeI planeJ planeK]. cbv zeta. toG. rewrite !Vertex_at in *. change (@Cross R Num_R) with cross.
      set (N := cross (minus (at_index (hv P) b) (at_index (hv P) a)) (minus (at_index (hv P) c) (at_index (hv P) a))) in *. rewrite nlit_R. change (@nltb R Num_R) with Rltb.
      rewrite (proj2 (Rltb_true _ _)).
      + cbn [pnormal]. f_equal. rewrite <- PN, <- E. unfold Plane_Set3. cbn [pnormal]. toG. change (@Cross R Num_R) with cross. fold N. reflexivity.
      + rewrite LengthSq_R. rewrite <- norm_sq. cbn. nra.
  Qed.
  Lemma poly_area : measurable (hv P) f -> Poly_Area (Hed_FacePolygon P f) = area2 / 2.
  Proof.
    intros M. pose proof (poly_normal M) as PN. unfold Poly_Area. pose proof (sum_dot n) as SD. pose proof area2_pos as AP. clearbody area2. unfold Hed_FacePolygon in *. clear O M term v0. destruct f as [|a [|b [|c l]]]; cbn [length] in L; try lia. cbn [map] in PN |- *. rewrite PN.
    change (Hed_Vertex P a :: Hed_Vertex P b :: Hed_Vertex P c :: map (Hed_Vertex P) l) with (map (Hed_Vertex P) (a :: b :: c :: l)). change (Hed_Vertex P) with at_. change (V3 n0 n0 n0) with origin. change (@Dot R Num_R) with dot. rewrite (crossSum_face at_ n a (b :: c :: l)). rewrite SD. unfold unitv in U. rewrite U. rewrite Abs_R. rewrite Rabs_pos_eq by lra. unfold nhalf. rsimpl. lra.
  Qed.
End Face.

(** ** The whole polyhedron *)
(** The sum of the tetrahedra does not depend on the apex. *)
Lemma apex_free vs fs q r : closed fs -> total (fun f => total (tetra6 vs q f) (directed f)) fs = total (fun f => total (tetra6 vs r f) (directed f)) fs.
Proof.
  intros C. assert (E : forall q, total (fun f => total (tetra6 vs q f) (directed f)) fs = total (fun f => total (fun e => dot (corner0 vs f) (cross (at_index vs (fst e)) (at_index vs (snd e)))) (directed f)) fs); [|now rewrite !E].
  clear q r. intros q. pose proof (closed_sum fs (fun a b => dot q (cross (at_index vs a) (at_index vs b))) C ltac:(intros a b _; unfold cross; gunf; cbn [vx vy vz]; ring)) as Z. cbv beta in Z. unfold all_directed in Z. rewrite total_flat in Z.
  rewrite <- (Rminus_0_r (total (fun f => total (fun e => dot (corner0 vs f) (cross (at_index vs (fst e)) (at_index vs (snd e)))) (directed f)) fs)), <- Z, <- total_minus. apply total_ext. intros f _. rewrite <- total_minus.
  transitivity (total (fun e => dot (minus (corner0 vs f) q) (cross (minus (at_index vs (fst e)) q) (minus (at_index vs (snd e)) q))) (directed f)).
  - apply total_ext. intros e _. unfold tetra6, volume, cross. gunf. cbn [vx vy vz]. ring.
  - rewrite (loop_shift (at_index vs)). apply total_ext. intros e _. gunf. cbn [vx vy vz]. ring.
Qed.
Lemma solid_unit_strict vs fs : convex_solid vs fs -> exists c, forall f, In f fs -> exists n, outward vs f n /\ unitv n /\ dot n (minus c (corner0 vs f)) < 0.
Proof.
  intros (V & _ & _ & c & IC). exists c. intros f F. destruct (IC f F) as (n & O & H). destruct (V f F) as (L & _). destruct (outward_unit _ _ _ O) as (k & K & U & O'). exists (scale k n). split; [exact O'|]. split; [exact U|]. rewrite dot_scale_l. specialize (H (nth 0 f 0%Z) (nth_In f 0%Z (Nat.lt_le_trans 0 3 _ ltac:(lia) L))). rewrite <- (Rmult_0_r k). apply Rmult_lt_compat_l; [exact K|exact H].
Qed.
(** Volume is the sum of the volumes of the tetrahedra that join the triangles of the faces to any point; for a point inside all of them
    count positively.  SurfaceArea is the sum of the areas of those triangles. *)
Theorem C101_volume (P : polyhedron R) : convex_solid (hv P) (hf P) -> (forall f, In f (hf P) -> measurable (hv P) f) ->
  exists v, Hed_Volume P = Some v /\ 0 < v /\ (forall q, 6 * v = total (fun f => total (tetra6 (hv P) q f) (directed f)) (hf P)) /\
  (forall q f e, in_hull (hv P) q -> In f (hf P) -> In e (directed f) -> 0 <= tetra6 (hv P) q f e) /\
  2 * Hed_SurfaceArea P = total (fun f => total (fan_triangle2 (hv P) f) (directed f)) (hf P).
Proof.
  intros S M. pose proof S as (V & C & NE & _). destruct (solid_unit_strict _ _ S) as (c & IC).
  assert (AC : forall fs acc, incl fs (hf P) -> fold_left (fun acc f => if big f then match acc, Poly_NormalCCW (Hed_FacePolygon P f) with Some volume, Some n => Some (volume + Dot (Hed_Vertex P (nth 0 f 0%Z)) n * Poly_Area (Hed_FacePolygon P f))%num | _, _ => None end else acc) fs (Some acc)
    = Some (acc + total (fun f => total (tetra6 (hv P) origin f) (directed f)) fs / 2)).
  { induction fs as [|f fs IH]; intros acc IN; cbn [fold_left total]; [f_equal; field|]. assert (F : In f (hf P)) by (apply IN; now left). destruct (V f F) as (L & _). destruct (IC f F) as (n & O & U & _).
    unfold big at 2. rewrite (proj2 (Nat.leb_le 3 (length f)) L). rewrite (poly_normal P f n O U L (M f F)), (poly_area P f n O U L (M f F)). rewrite IH by (intros g G; apply IN; now right). f_equal. rewrite (tetra_sum P f n O U L origin). rewrite Vertex_at. change (@Dot R Num_R) with dot. rsimpl. fold (corner0 (hv P) f). rewrite (dot_comm (corner0 (hv P) f) n).
    replace (- dot n (minus origin (corner0 (hv P) f))) with (dot n (corner0 (hv P) f)) by (unfold origin; gunf; cbn [vx vy vz]; ring). lra. }
  assert (AP : 0 < total (fun f => total (tetra6 (hv P) c f) (directed f)) (hf P)).
  { assert (EV : forall f, In f (hf P) -> 0 < total (tetra6 (hv P) c f) (directed f)).
    { intros f F. destruct (V f F) as (L & _). destruct (IC f F) as (n & O & U & H). rewrite (tetra_sum P f n O U L c). pose proof (area2_pos P f n O L) as A. apply Rmult_lt_0_compat; [lra|exact A]. }
    destruct (hf P) as [|f0 fs0] eqn:E; [easy|]. apply (total_pos _ _ f0); [intros y Y; left; now apply EV|now left|apply EV; now left]. }
  rewrite (apex_free _ _ c origin C) in AP. set (T := total (fun f => total (tetra6 (hv P) origin f) (directed f)) (hf P)) in *. exists (T / 6). split; [|split; [lra|split; [|split]]].
  - unfold Hed_Volume. change (Some n0) with (Some 0). rewrite (AC (hf P) 0 (incl_refl _)). fold T. cbn [option_map]. f_equal. rewrite Abs_R. rsimpl. rewrite Rabs_pos_eq by lra. lra.
  - intros q. rewrite (apex_free _ _ q origin C). fold T. field.
  - intros q f e I F X. destruct (V f F) as (L & _). destruct (IC f F) as (n & O & U & H). rewrite (tetra_term P f n O U L q e X). pose proof (term_pos P f n O L e X). pose proof (hull_behind _ _ _ I f n F O (nth 0 f 0%Z) (nth_In f 0%Z (Nat.lt_le_trans 0 3 _ ltac:(lia) L))) as B. fold (corner0 (hv P) f) in B. nra.
  - assert (AS : forall fs acc, incl fs (hf P) -> fold_left (fun area f => if big f then (area + Poly_Area (Hed_FacePolygon P f))%num else area) fs acc = acc + total (fun f => total (fan_triangle2 (hv P) f) (directed f)) fs / 2).
    { induction fs as [|f fs IH]; intros acc IN; cbn [fold_left total]; [field|]. assert (F : In f (hf P)) by (apply IN; now left). destruct (V f F) as (L & _). destruct (IC f F) as (n & O & U & _). unfold big at 2. rewrite (proj2 (Nat.leb_le 3 (length f)) L). rewrite (poly_area P f n O U L (M f F)). rewrite IH by (intros g G; apply IN; now right). rsimpl.
      rewrite <- (total_ext _ _ _ (term_norm P f n O U L)). lra. }
    unfold Hed_SurfaceArea. change (@n0 R Num_R) with 0. rewrite AS by apply incl_refl. lra.
Qed.
Print Assumptions C101_volume.

(** ** IsConvex *)
Lemma dot_ext (a b : pt) : (forall w, dot w a = dot w b) -> a = b.
Proof. intros H. apply vec_ext; [specialize (H (V3 1 0 0))|specialize (H (V3 0 1 0))|specialize (H (V3 0 0 1))]; gunf; cbn [vx vy vz] in H; lra. Qed.
Lemma normalize4d_R (v : pt) : Normalize4d v = scale (/ norm v) v.
Proof. unfold Normalize4d. change (@Length R Num_R v) with (norm v). rewrite vmuls_R. rsimpl. f_equal. unfold Rdiv. ring. Qed.
Lemma normalized_scale (n : pt) k : unitv n -> 0 < k -> Normalize4d (scale k n) = n.
Proof.
  intros U K. assert (N : norm (scale k n) = k) by (unfold norm; rewrite dot_scale_l, dot_scale_r; unfold unitv in U; rewrite U; replace (k * (k * 1)) with (k * k) by ring; apply sqrt_square; lra).
  rewrite normalize4d_R, N. apply vec_ext; gunf; cbn [vx vy vz]; field; lra.
Qed.
Lemma face_normal (P : polyhedron R) f n : outward (hv P) f n -> unitv n -> (3 <= length f)%nat -> Hed_FaceNormal P f = Some n.
Proof.
  intros O U L. pose proof (area2_pos P f n O L) as A. pose proof (sum_dot P f n O U L) as SD. set (area := total _ (directed f)) in A. 
  assert (SD' : forall w, total (fun e => dot w (cross (at_index (hv P) (fst e)) (at_index (hv P) (snd e)))) (directed f) = dot w (scale area n)) by (intros w; rewrite SD, dot_scale_r; unfold area; ring). clearbody area. clear SD. unfold Hed_FaceNormal, Hed_FacePolygon.
  destruct f as [|a [|b [|c l]]]; cbn [length] in L; try lia. change (Hed_Vertex P) with (at_index (hv P)) in *. destruct l as [|d l].
  - cbn [map]. f_equal. toG. change (@Cross R Num_R) with cross. rewrite <- (normalized_scale n area U A). f_equal. apply dot_ext. intros w. rewrite <- SD'. change (directed [a; b; c]) with [(a, b); (b, c); (c, a)]. cbn [total fst snd]. unfold cross. gunf. cbn [vx vy vz]. ring.
  - cbn [map]. f_equal. rewrite <- (normalized_scale n area U A). f_equal. change (V3 n0 n0 n0) with origin. apply dot_ext. intros w. rewrite <- SD'. exact (newell_face (at_index (hv P)) w a (b :: c :: d :: l)).
Qed.
(** Convex polyhedra pass, and FaceNormal is their outward unit normal. *)
Theorem C101_convex (P : polyhedron R) : convex_solid (hv P) (hf P) -> Hed_IsConvex P = true /\ forall f, In f (hf P) -> exists n, Hed_FaceNormal P f = Some n /\ unitv n /\ outward (hv P) f n.
Proof.
  intros S. pose proof S as (V & _). destruct (solid_unit_strict _ _ S) as (c & IC).
  assert (FN : forall f, In f (hf P) -> exists n, Hed_FaceNormal P f = Some n /\ unitv n /\ outward (hv P) f n) by (intros f F; destruct (V f F) as (L & _); destruct (IC f F) as (n & O & U & _); exists n; split; [exact (face_normal P f n O U L)|now split]).
  split; [|exact FN]. unfold Hed_IsConvex. apply forallb_forall. intros f F. destruct (FN f F) as (n & E & U & O). destruct f as [|i f]; [reflexivity|]. rewrite E.
  apply forallb_forall. intros v I. toG. change (@Dot R Num_R) with dot. rewrite Vertex_at, nlit_R. change (@nltb R Num_R) with Rltb. apply negb_true_iff, Rltb_false. pose proof (behind _ _ _ O i v (or_introl eq_refl) I). cbn. lra.
Qed.
Print Assumptions C101_convex.
(** For triangles the test says exactly that no vertex is more than 1/100 in front of a face. *)
Theorem C101_convex_iff (P : polyhedron R) : (forall f, In f (hf P) -> exists i j k, f = [i; j; k] /\ cross (minus (at_index (hv P) j) (at_index (hv P) i)) (minus (at_index (hv P) k) (at_index (hv P) i)) <> origin) ->
  Hed_IsConvex P = true <-> forall i j k v, In [i; j; k] (hf P) -> In v (hv P) ->
    let n := cross (minus (at_index (hv P) j) (at_index (hv P) i)) (minus (at_index (hv P) k) (at_index (hv P) i)) in dot n (minus v (at_index (hv P) i)) <= norm n / 100.
Proof.
  intros T. unfold Hed_IsConvex. rewrite forallb_forall.
  assert (ONE : forall i j k v, cross (minus (at_index (hv P) j) (at_index (hv P) i)) (minus (at_index (hv P) k) (at_index (hv P) i)) <> origin ->
    negb (nltb (nlit 1 100) (Dot (Normalize4d (Cross (vsub (Hed_Vertex P j) (Hed_Vertex P i)) (vsub (Hed_Vertex P k) (Hed_Vertex P i)))) (vsub v (Hed_Vertex P i)))) = true <->
    dot (cross (minus (at_index (hv P) j) (at_index (hv P) i)) (minus (at_index (hv P) k) (at_index (hv P) i))) (minus v (at_index (hv P) i)) <= norm (cross (minus (at_index (hv P) j) (at_index (hv P) i)) (minus (at_index (hv P) k) (at_index (hv P) i))) / 100).
  { intros i j k v N. toG. change (@Dot R Num_R) with dot. change (@Cross R Num_R) with cross. rewrite !Vertex_at. set (n := cross _ _) in *. rewrite normalize4d_R, dot_scale_l, nlit_R. change (@nltb R Num_R) with Rltb. rewrite negb_true_iff, Rltb_false. cbn.
    assert (MP : 0 < norm n) by (destruct (norm_pos n) as [H|H]; [exact H|]; symmetry in H; now apply norm_zero in H).
    set (h := dot n _). clearbody h. set (m := norm n) in *. clearbody m. split; intros H.
    - apply Rmult_le_reg_l with (/ m); [apply Rinv_0_lt_compat; lra|]. replace (/ m * (m / 100)) with (1 / 100) by (field; lra). exact H.
    - apply Rmult_le_reg_l with m; [lra|]. replace (m * (/ m * h)) with h by (field; lra). lra. }
  split.
  - intros H i j k v F I. cbv zeta. specialize (H _ F). destruct (T _ F) as (i' & j' & k' & E & N). injection E as <- <- <-. unfold Hed_FaceNormal, Hed_FacePolygon in H. cbn [map] in H. rewrite forallb_forall in H. specialize (H v I). now apply ONE in H.
  - intros H f F. destruct (T f F) as (i & j & k & -> & N). unfold Hed_FaceNormal, Hed_FacePolygon. cbn [map]. rewrite forallb_forall. intros v I. apply ONE; [exact N|]. exact (H i j k v F I).
Qed.
Print Assumptions C101_convex_iff.
(** The margin is absolute: anything whose vertices are within 1/100 of each other passes, whatever its shape. *)
Theorem C101_tiny_refuted (P : polyhedron R) : (forall f, In f (hf P) -> (3 <= length f)%nat /\ forall x, In x f -> In (at_index (hv P) x) (hv P)) -> (forall v w, In v (hv P) -> In w (hv P) -> dist v w <= 1 / 100) -> Hed_IsConvex P = true.
Proof.
  intros V D. unfold Hed_IsConvex. apply forallb_forall. intros f F. destruct (V f F) as (L & B). destruct f as [|i f]; [reflexivity|].
  assert (UN : forall x : pt, dot (Normalize4d x) (Normalize4d x) <= 1).
  { intros x. rewrite normalize4d_R. rewrite dot_scale_l, dot_scale_r, <- norm_sq. destruct (Req_dec (norm x) 0) as [E|E]; [rewrite E; lra|]. right. now field. }
  assert (N : exists n, Hed_FaceNormal P (i :: f) = Some n /\ dot n n <= 1).
  { unfold Hed_FaceNormal, Hed_FacePolygon. cbn [map]. destruct f as [|j [|k [|l f]]]; cbn [length map] in *; try lia; eexists; (split; [reflexivity|apply UN]). }
  destruct N as (n & -> & U). apply forallb_forall. intros v I. toG. change (@Dot R Num_R) with dot. rewrite Vertex_at, nlit_R. change (@nltb R Num_R) with Rltb. apply negb_true_iff, Rltb_false. cbn.
  specialize (D v _ I (B i (or_introl eq_refl))). set (u := minus v (at_index (hv P) i)) in *. assert (CS : dot n u <= norm u).
  { pose proof (norm_sq u) as NS. pose proof (norm_pos u) as NP. apply Rnot_lt_le. intros Q. assert (LG : dot n u * dot n u <= dot n n * dot u u) by (assert (Z : dot n n * dot u u - dot n u * dot n u = dot (cross n u) (cross n u)) by (unfold cross; gunf; cbn [vx vy vz]; ring); pose proof (dot_pos (cross n u)); lra). pose proof (dot_pos n). nra. }
  change (dist v (at_index (hv P) i)) with (norm u) in D. lra.
Qed.
Print Assumptions C101_tiny_refuted.

(** ** OrientNormalsOutsideConvex *)
Definition last_corner (vs : list pt) (f : list Z) (n : pt) : Prop :=
  dot n (cross (minus (at_index vs (nth 1 (rev f) 0%Z)) (at_index vs (nth 0 (rev f) 0%Z))) (minus (at_index vs (nth 2 (rev f) 0%Z)) (at_index vs (nth 0 (rev f) 0%Z)))) < 0.
Lemma fold_vadd_dot (n : pt) : forall l acc, dot n (fold_left vadd l acc) = dot n acc + total (fun v => dot n v) l.
Proof. induction l as [|v l IH]; intros acc; cbn [fold_left total]; [ring|]. rewrite IH. toG. rewrite dot_plus_r. ring. Qed.
Lemma total_const {A : Type} k (l : list A) : total (fun _ => k) l = IZR (Z.of_nat (length l)) * k.
Proof. induction l as [|x l IH]; [cbn; ring|]. cbn [total length]. rewrite IH, Nat2Z.inj_succ. unfold Z.succ. rewrite plus_IZR. ring. Qed.
(** The mean of the vertices is strictly behind every face. *)
Lemma mean_behind vs fs f n x : convex_solid vs fs -> In f fs -> outward vs f n -> In x f -> total (fun v => dot n (minus v (at_index vs x))) vs < 0.
Proof.
  intros S F O X. pose proof S as (V & _ & _ & c & IC). assert (E : exists v, In v vs /\ dot n (minus v (at_index vs x)) < 0).
  { apply NNPP. intros NE. assert (ALL : forall v, In v vs -> 0 <= dot n (minus v (at_index vs x))) by (intros v I; apply Rnot_lt_le; intros Q; eauto).
    destruct (IC f F) as (m & O' & H). destruct (V f F) as (L & _). destruct (outward_unique (Hed vs fs) f m n L O' O) as (k & K & ->). cbn [hv] in *. specialize (H x X).
    assert (CH : in_hull vs c). { apply (solid_hull _ _ _ S). apply (behind_some (Hed vs fs)); [exact V|]. cbn [hf hv]. intros g G. destruct (IC g G) as (l & OL & HL). exists l. split; [exact OL|]. intros y Y. left. now apply HL. }
    assert (Q : 0 <= dot (scale k m) (minus c (at_index vs x))); [|rewrite dot_scale_l in Q; nra]. apply (CH (fun z => 0 <= dot (scale k m) (minus z (at_index vs x)))); [|exact ALL].
    intros y z t Y Z T. replace (dot (scale k m) (minus (plus y (scale t (minus z y))) (at_index vs x))) with ((1 - t) * dot (scale k m) (minus y (at_index vs x)) + t * dot (scale k m) (minus z (at_index vs x))) by (gunf; cbn [vx vy vz]; ring). nra. }
  destruct E as (v & I & Q). assert (P : 0 < total (fun v => - dot n (minus v (at_index vs x))) vs); [|rewrite total_opp in P; lra]. apply (total_pos _ _ v); [intros y Y; pose proof (behind _ _ _ O x y X Y); lra|exact I|lra].
Qed.
(** The plane computed for a flipped face points inward. *)
Lemma flipped_plane (P : polyhedron R) f n : (3 <= length f)%nat -> outward (hv P) f n -> last_corner (hv P) f n ->
  exists pl k, Hed_FacePlane P (rev f) = Some pl /\ 0 < k /\ forall q x, In x f -> height pl q = - k * dot n (minus q (at_index (hv P) x)).
Proof.
  intros L O C. pose proof (outward_nz _ _ _ O) as NZ. assert (IN : forall y, In y (rev f) -> In y f) by (intros y Y; apply in_rev; exact Y). rewrite <- rev_length in L. unfold last_corner in C. destruct (rev f) as [|x [|y [|z l]]]; cbn [length] in L; try lia. cbn [nth] in C.
  set (a := at_index (hv P) x) in *. set (b := at_index (hv P) y) in *. set (c := at_index (hv P) z) in *.
  assert (HU : dot n (minus b a) = 0) by (apply (flat _ _ _ O); apply IN; cbn; auto). assert (HW : dot n (minus c a) = 0) by (apply (flat _ _ _ O); apply IN; cbn; auto).
  pose proof (cross_normal n _ _ NZ HU HW) as E. set (k0 := _ / _) in E. pose proof (nz_pos n NZ) as NN.
  assert (K0 : k0 < 0) by (unfold k0; apply Ropp_lt_cancel; rewrite Ropp_0, <- Ropp_div; apply Rdiv_lt_0_compat; lra).
  assert (CN : Cross (minus b a) (minus c a) <> origin).
  { change (@Cross R Num_R) with cross. rewrite E. intros Q. apply (f_equal (dot n)) in Q. rewrite dot_scale_r in Q. rewrite (dot_origin_r n) in Q. nra. }
  destruct (C39_through_points a b c CN) as (_ & PA & _ & _ & _). exists (Plane_Set3 a b c).
  assert (PN : exists k, 0 < k /\ pnormal (Plane_Set3 a b c) = scale (- k) n).
  { unfold Plane_Set3. toG. change (@Length R Num_R) with norm. change (@Cross R Num_R) with cross. rewrite E. cbn [pnormal].
    assert (LP : 0 < norm (scale k0 n)) by (destruct (norm_pos (scale k0 n)) as [H|H]; [exact H|]; symmetry in H; apply norm_zero in H; change (@Cross R Num_R) with cross in CN; rewrite E in CN; contradiction).
    exists (- k0 / norm (scale k0 n)). split; [apply Rdiv_lt_0_compat; lra|]. set (m := norm (scale k0 n)) in *. unfold vdivs. rsimpl. gunf. apply vec_ext; cbn [vx vy vz]; field; lra. }
  destruct PN as (k & K & PN). exists k. split; [reflexivity|]. split; [exact K|]. intros q w W. unfold height. unfold on_plane in PA. rewrite <- PA, PN, !dot_scale_l, dot_minus_r.
  assert (Z : dot n (minus (at_index (hv P) w) a) = 0) by (apply (flat _ _ _ O); [apply IN; now left|exact W]). rewrite dot_minus_r in Z. replace (dot n a) with (dot n (at_index (hv P) w)) by lra. ring.
Qed.
(** Whichever faces of a convex polyhedron are turned over, OrientNormalsOutsideConvex turns exactly those back. *)
Theorem C101_orient (vs : list pt) (fs gs : list (list Z)) : convex_solid vs fs -> (forall f n, In f fs -> outward vs f n -> last_corner vs f n) ->
  Forall2 (fun f g => g = f \/ g = rev f) fs gs -> Hed_OrientNormalsOutsideConvex (Hed vs gs) = Hed vs fs.
Proof.
  intros S LC FG. pose proof S as (V & _ & NE & c & IC). unfold Hed_OrientNormalsOutsideConvex. cbn [hv hf].
  destruct vs as [|v0 rest] eqn:EV. { exfalso. destruct fs as [|f fs]; [easy|]. destruct (V f (or_introl eq_refl)) as (L & _ & B). destruct f as [|x f]; [cbn in L; lia|]. specialize (B x (or_introl eq_refl)). cbn in B. lia. }
  rewrite <- EV in *. set (center := vdivs _ _). f_equal. set (P := Hed vs gs).
  assert (CB : forall f n x, In f fs -> outward vs f n -> In x f -> dot n (minus center (at_index vs x)) < 0).
  { intros f n x F O X. pose proof (mean_behind vs fs f n x S F O X) as M. assert (LN : 0 < IZR (Z.of_nat (length vs))) by (apply IZR_lt; rewrite EV; cbn; lia).
    assert (E : dot n (minus center (at_index vs x)) = total (fun v => dot n (minus v (at_index vs x))) vs / IZR (Z.of_nat (length vs))).
    { rewrite (total_ext _ (fun v => dot n v - dot n (at_index vs x))) by (intros; apply dot_minus_r). rewrite (total_minus (fun v => dot n v) (fun _ => dot n (at_index vs x))), total_const. rewrite dot_minus_r. unfold center.
      replace (dot n (vdivs (fold_left vadd rest v0) (nlit (Z.of_nat (length vs)) 1))) with (dot n (fold_left vadd rest v0) / IZR (Z.of_nat (length vs))) by (unfold vdivs; rsimpl; gunf; cbn [vx vy vz]; field; lra).
      rewrite fold_vadd_dot. rewrite EV at 3. cbn [total]. field. lra. }
    rewrite E. apply Ropp_lt_cancel. rewrite Ropp_0, <- Ropp_div. apply Rdiv_lt_0_compat; lra. }
  assert (G : forall gs' fs', incl fs' fs -> Forall2 (fun f g => g = f \/ g = rev f) fs' gs' -> map (fun f => match Hed_FacePlane P f with Some pl => if nltb n0 (Plane_SignedDistance pl center) then FlipFace f else f | None => f end) gs' = fs').
  { clear EV. intros gs'. induction gs' as [|g gs' IH]; intros fs' IN FO; inversion FO as [|f ? fs2 ? FG1 FG2]; subst; [reflexivity|]. cbn [map]. assert (F : In f fs) by (apply IN; now left). rewrite (IH fs2) by (try assumption; intros y Y; apply IN; now right). f_equal.
    destruct (V f F) as (L & _). destruct (IC f F) as (n & O & _). assert (X : In (nth 0 f 0%Z) f) by (apply nth_In; lia). pose proof (CB f n _ F O X) as H. change (@nltb R Num_R) with Rltb. change (@n0 R Num_R) with 0. change (@Plane_SignedDistance R Num_R) with height. destruct FG1 as [->| ->].
    - destruct (face_plane P f n L O) as (pl & k & -> & K & _ & _ & HH). rewrite (HH center _ X). change (hv P) with vs. rewrite (proj2 (Rltb_false _ _)) by nra. reflexivity.
    - destruct (flipped_plane P f n L O (LC f n F O)) as (pl & k & -> & K & HH). rewrite (HH center _ X). change (hv P) with vs. rewrite (proj2 (Rltb_true _ _)) by nra. rewrite FlipFace_rev. apply rev_involutive. }
  apply G; [apply incl_refl|exact FG].
Qed.
Print Assumptions C101_orient.

(** ** Affine images *)
Definition det34 (m : mat34 R) : R := volume (row0 (lin34 m)) (row1 (lin34 m)) (row2 (lin34 m)).
Definition lin (m : mat34 R) (u : pt) : pt := V3 (dot (row0 (lin34 m)) u) (dot (row1 (lin34 m)) u) (dot (row2 (lin34 m)) u).
Lemma affine_minus m (x y : pt) : minus (mulpos34 m x) (mulpos34 m y) = lin m (minus x y).
Proof. unfold lin, mulpos34. rsimpl. apply vec_ext; gunf; cbn [vx vy vz]; ring. Qed.
Lemma lin_volume m (a b c : pt) : volume (lin m a) (lin m b) (lin m c) = det34 m * volume a b c.
Proof. unfold lin, volume, det34, volume, dot. cbn [vx vy vz]. ring. Qed.
(** The normal transforms with the cofactors. *)
Definition cof (m : mat34 R) (n : pt) : pt := let r0 := row0 (lin34 m) in let r1 := row1 (lin34 m) in let r2 := row2 (lin34 m) in V3 (dot n (cross r1 r2)) (dot n (cross r2 r0)) (dot n (cross r0 r1)).
Lemma cof_dot m n u : dot (cof m n) (lin m u) = det34 m * dot n u.
Proof. unfold cof, lin, det34, volume, cross, dot. cbn [vx vy vz]. ring. Qed.
Lemma cof_cross m u w : cross (lin m u) (lin m w) = cof m (cross u w).
Proof. unfold cof, lin, cross, dot. apply vec_ext; cbn [vx vy vz]; ring. Qed.
Lemma cof_scale m k n : cof m (scale k n) = scale k (cof m n).
Proof. unfold cof. apply vec_ext; gunf; cbn [vx vy vz]; ring. Qed.
Lemma at_map (g : pt -> pt) vs x : (0 <= x < Z.of_nat (length vs))%Z -> at_index (map g vs) x = g (at_index vs x).
Proof. intros B. unfold at_index. rewrite (nth_indep _ origin (g origin)) by (rewrite map_length; lia). apply map_nth. Qed.
Lemma hull_affine m vs q : in_hull vs q -> in_hull (map (mulpos34 m) vs) (mulpos34 m q).
Proof.
  intros I A CV H. apply (I (fun z => A (mulpos34 m z))); [|intros v IV; apply H; now apply in_map]. intros x y k X Y K. replace (mulpos34 m (plus x (scale k (minus y x)))) with (plus (mulpos34 m x) (scale k (minus (mulpos34 m y) (mulpos34 m x)))); [now apply CV|]. unfold mulpos34. rsimpl. apply vec_ext; gunf; cbn [vx vy vz]; ring.
Qed.
Lemma outward_affine m vs f n : 0 < det34 m -> (3 <= length f)%nat -> (forall x, In x f -> (0 <= x < Z.of_nat (length vs))%Z) -> outward vs f n -> outward (map (mulpos34 m) vs) f (cof m n).
Proof.
  intros D L B O. pose proof (outward_nz _ _ _ O) as NZ. pose proof (nz_pos _ NZ) as NN.
  assert (CZ : 0 < dot (cof m n) (cof m n)).
  { apply nz_pos. intros Q. assert (E : dot (cof m n) (lin m n) = det34 m * dot n n) by apply cof_dot. rewrite Q, dot_comm, dot_origin_r in E. nra. }
  assert (CC : forall a x y, In a f -> In x f -> In y f -> dot (cof m n) (cross (minus (at_index (map (mulpos34 m) vs) x) (at_index (map (mulpos34 m) vs) a)) (minus (at_index (map (mulpos34 m) vs) y) (at_index (map (mulpos34 m) vs) a))) = dot n (cross (minus (at_index vs x) (at_index vs a)) (minus (at_index vs y) (at_index vs a))) / dot n n * dot (cof m n) (cof m n)).
  { intros a x y A X Y. rewrite !at_map by now apply B. rewrite !affine_minus, cof_cross. rewrite (cross_normal n _ _ NZ (flat _ _ _ O a x A X) (flat _ _ _ O a y A Y)) at 1. rewrite cof_scale, dot_scale_r. reflexivity. }
  split.
  - intros x y X Y. rewrite !at_map by now apply B. rewrite affine_minus, cof_dot, (flat _ _ _ O x y X Y). ring.
  - intros a b x I X. pose proof (directed_vertex _ _ _ I) as (A & A'). rewrite CC by assumption. pose proof (left_of_edges _ _ _ O a b x I X) as Q. apply Rmult_le_pos; [|lra]. apply Rmult_le_pos; [exact Q|left; now apply Rinv_0_lt_compat].
  - rewrite CC by (apply nth_In; lia). pose proof (first_corner _ _ _ O) as Q. apply Rmult_lt_0_compat; [now apply Rdiv_lt_0_compat|exact CZ].
  - intros x v X I. apply in_map_iff in I as (u & <- & I). rewrite at_map by now apply B. rewrite affine_minus, cof_dot. pose proof (behind _ _ _ O x u X I). nra.
Qed.
(** An orientation-preserving affine map sends a convex polyhedron to one, its solid onto the solid of the image, and multiplies the volume by the determinant. *)
Theorem C101_transform (P : polyhedron R) (m : mat34 R) : convex_solid (hv P) (hf P) -> 0 < det34 m -> let Q := Hed_Transform34 P m in
  convex_solid (hv Q) (hf Q) /\ (forall q, in_hull (hv P) q <-> in_hull (hv Q) (mulpos34 m q)) /\
  ((forall f, In f (hf P) -> measurable (hv P) f /\ measurable (hv Q) f) -> exists v, Hed_Volume P = Some v /\ Hed_Volume Q = Some (det34 m * v)).
Proof.
  intros S D Q. pose proof S as (V & C & NE & c & IC). assert (SQ : convex_solid (hv Q) (hf Q)).
  { unfold Q, Hed_Transform34. cbn [hv hf]. split; [now rewrite map_length|]. split; [exact C|]. split; [exact NE|]. exists (mulpos34 m c). intros f F. destruct (V f F) as (L & _ & B). destruct (IC f F) as (n & O & H). exists (cof m n). split; [now apply outward_affine|].
    intros x X. rewrite at_map by now apply B. rewrite affine_minus, cof_dot. specialize (H x X). nra. }
  split; [exact SQ|]. split.
  - intros q. split; [apply hull_affine|]. intros I. apply (solid_hull _ _ _ S). intros f n F O x X. destruct (V f F) as (L & _ & B). pose proof (hull_behind _ _ _ I f (cof m n) F (outward_affine m _ f n D L B O) x X) as H. unfold Q, Hed_Transform34 in H. cbn [hv] in H. rewrite at_map, affine_minus, cof_dot in H by now apply B. nra.
  - intros M. destruct (C101_volume P S (fun f F => proj1 (M f F))) as (v & E & _ & SV & _). destruct (C101_volume Q SQ (fun f F => proj2 (M f F))) as (w & E' & _ & SW & _). exists v. split; [exact E|]. rewrite E'. f_equal.
    specialize (SV origin). specialize (SW (mulpos34 m origin)). assert (6 * w = det34 m * (6 * v)); [|lra]. rewrite SV, SW. rewrite <- total_scale. unfold Q, Hed_Transform34. cbn [hv hf]. apply total_ext. intros f F. rewrite <- total_scale. apply total_ext. intros (a & b) I. destruct (V f F) as (L & _ & B). apply directed_vertex in I as (A & A').
    unfold tetra6, corner0. cbn [fst snd]. rewrite !at_map by (apply B; try assumption; apply nth_In; lia). rewrite !affine_minus. apply lin_volume.
Qed.
Print Assumptions C101_transform.
(** Translating moves the vertices and nothing else, so it is the affine map with the identity. *)
Theorem C101_translate (P : polyhedron R) (t : pt) : Hed_Translate P t = Hed_Transform34 P (M34 (M3 (V3 1 0 0) (V3 0 1 0) (V3 0 0 1)) t) /\ det34 (M34 (M3 (V3 1 0 0) (V3 0 1 0) (V3 0 0 1)) t) = 1.
Proof.
  split; [|unfold det34, volume; cbn; ring]. unfold Hed_Translate, Hed_Transform34. f_equal. apply map_ext. intros v. unfold mulpos34, vadd. rsimpl. apply vec_ext; cbn [lin34 trans34 row0 row1 row2 vx vy vz]; ring.
Qed.
Print Assumptions C101_translate.

(** ** The tetrahedron *)
Lemma tetra_measurable f : In f (hf tetra) -> measurable (hv tetra) f. Proof. intros F. left. cbn in F. destruct F as [<-|[<-|[<-|[<-|[]]]]]; reflexivity. Qed.
Example C101_volume_witness : convex_solid (hv tetra) (hf tetra) /\ (forall f, In f (hf tetra) -> measurable (hv tetra) f) /\ Hed_Volume tetra = Some (1 / 6).
Proof.
  split; [exact tetra_solid|]. split; [exact tetra_measurable|]. destruct (C101_volume tetra tetra_solid tetra_measurable) as (v & E & _ & S & _). rewrite E. f_equal. specialize (S origin).
  pose proof tetra_at as (A0 & A1 & A2 & A3). change (hf tetra) with [[0; 2; 1]; [0; 1; 3]; [0; 3; 2]; [1; 2; 3]]%Z in S. cbn [total] in S.
  change (directed [0; 2; 1]%Z) with [(0, 2); (2, 1); (1, 0)]%Z in S. change (directed [0; 1; 3]%Z) with [(0, 1); (1, 3); (3, 0)]%Z in S. change (directed [0; 3; 2]%Z) with [(0, 3); (3, 2); (2, 0)]%Z in S. change (directed [1; 2; 3]%Z) with [(1, 2); (2, 3); (3, 1)]%Z in S.
  cbn [total] in S. unfold tetra6, corner0 in S. cbn [fst snd nth] in S. rewrite A0, A1, A2, A3 in S. unfold volume, origin in S. gunf. cbn [vx vy vz] in S. lra.
Qed.
Example C101_orient_witness : convex_solid (hv tetra) (hf tetra) /\ (forall f n, In f (hf tetra) -> outward (hv tetra) f n -> last_corner (hv tetra) f n) /\ Forall2 (fun f g => g = f \/ g = rev f) (hf tetra) [[0; 2; 1]; [3; 1; 0]; [0; 3; 2]; [3; 2; 1]]%Z.
Proof.
  split; [exact tetra_solid|]. split.
  - intros f n F O. pose proof (first_corner _ _ _ O) as Q. unfold last_corner. cbn in F. destruct F as [<-|[<-|[<-|[<-|[]]]]]; cbn [rev app nth] in *;
      match goal with |- dot _ (cross (minus (at_index _ ?y) (at_index _ ?x)) (minus (at_index _ ?z) _)) < 0 => set (a := at_index (hv tetra) x) in *; set (b := at_index (hv tetra) y) in *; set (c := at_index (hv tetra) z) in * end;
      clearbody a b c; clear - Q; unfold cross in *; gunf; cbn [vx vy vz] in *; nra.
  - repeat constructor; (now left) || (now right).
Qed.
