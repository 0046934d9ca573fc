(** Capsules (C50). *)
From Coq Require Import Reals Psatz List Bool.
From Verif Require Import Num NumR ScalarModel ScalarProofs Vec3Model GeoTypes GeoSpec GeoLemmas Vec3Props AabbModel AabbSpec AabbProofs MatModel MatSpec MatProofs MatProofs2 LineModel LineSpec LineProofs LineProofs2 LineProps
  RotModel RotSpec RotProofs RotProofs3 PlaneModel PlaneSpec PlaneProps PlaneProps2 PlaneProps3 PlaneProps4 SphereModel SphereSpec SphereProps SphereProps2 TriangleModel TriangleSpec TriangleProps TriangleProps2 TriangleProps4 TriangleProps5 CircleModel CircleProps CapsuleModel.
Import ListNotations.
Open Scope R_scope.
Ltac Zify.zify_post_hook ::= idtac.

(** ** Containment *)
(** Also for a segment with a = b: the code then divides by zero, but whatever number comes out is multiplied by the zero direction. *)
Lemma seg_nearest (s : segment R) p : nearest (on_segment s) p (fst (Seg_ClosestPoint s p)).
Proof.
  rewrite Seg_ClosestPoint_R. cbn [fst]. split; [eexists; split; [apply clamp01_in|reflexivity]|]. intros a' (t & T & ->). apply dist_le. change (plus (seg_a s) (scale t (minus (seg_b s) (seg_a s)))) with (along (seg_a s) (sdir s) t).
  destruct (Req_dec (dot (sdir s) (sdir s)) 0) as [Z|N]; [|now apply seg_near]. apply dot_zero in Z. rewrite Z.
  assert (E : forall k, along (seg_a s) origin k = seg_a s) by (intros; unfold along; gunf; apply vec_ext; cbn [vx vy vz]; ring). rewrite !E. lra.
Qed.
Lemma seg_distance (s : segment R) p : distance_is (on_segment s) (single p) (fst (Seg_Distance s p)).
Proof.
  pose proof (seg_nearest s p) as N. unfold Seg_Distance. destruct (Seg_ClosestPoint s p) as [c d]. cbn [fst] in *. now apply nearest_distance.
Qed.
Theorem C50_contains (c : capsule R) (p : pt) : Capsule_Contains c p = true <-> in_capsule c p.
Proof.
  unfold Capsule_Contains, in_capsule. rsimpl. rewrite Rleb_true. destruct (seg_distance (cap_l c) p) as [(a & b & A & B & E) M]. unfold single in B. subst b. split.
  - intros L. exists a. split; [exact A|lra].
  - intros (q & Q & L). eapply Rle_trans; [apply (M q p Q); reflexivity|exact L].
Qed.
Print Assumptions C50_contains.
Theorem C50_from_sphere (s : sphere R) (p : pt) : in_capsule (Capsule_SetFrom s) p <-> in_sphere s p.
Proof.
  unfold in_capsule, in_sphere, Capsule_SetFrom. cbn [cap_l cap_r]. split.
  - intros (q & (k & K & ->) & D). cbn [seg_a seg_b] in D. replace (plus (spos s) (scale k (minus (spos s) (spos s)))) with (spos s) in D by (gunf; apply vec_ext; cbn [vx vy vz]; ring). exact D.
  - intros D. exists (spos s). split; [|exact D]. exists 0. split; [lra|]. cbn [seg_a seg_b]. gunf; apply vec_ext; cbn [vx vy vz]; ring.
Qed.
Lemma convex_capsule (c : capsule R) : convex_set (in_capsule c).
Proof.
  intros x y k (p & Sp & Dp) (q & Sq & Dq) K. exists (plus p (scale k (minus q p))). split; [now apply convex_seg|].
  unfold dist in *. replace (minus (plus p (scale k (minus q p))) (plus x (scale k (minus y x)))) with (plus (scale (1 - k) (minus p x)) (scale k (minus q y))) by (gunf; apply vec_ext; cbn [vx vy vz]; ring).
  eapply Rle_trans; [apply norm_triangle|]. rewrite !norm_scale, !Rabs_pos_eq by lra. nra.
Qed.
Theorem C50_contains_shapes (c : capsule R) (l : segment R) (t : triangle R) (b : aabb R) (vs : list pt) : box_ok b ->
  (Capsule_ContainsSeg c l = true <-> forall p, on_segment l p -> in_capsule c p) /\
  (Capsule_ContainsTri c t = true <-> forall p, in_triangle t p -> in_capsule c p) /\
  (Capsule_ContainsAABB c b = true <-> forall p, in_box b p -> in_capsule c p) /\
  (Capsule_ContainsVertices c vs = true <-> forall p, in_hull vs p -> in_capsule c p).
Proof.
  intros B. pose proof (convex_capsule c) as CV. split; [|split; [|split]].
  - unfold Capsule_ContainsSeg. rewrite andb_true_iff, !C50_contains. split.
    + intros [A C] p (k & K & ->). apply (CV _ _ _ A C K).
    + intros A. split; apply A; [exists 0|exists 1]; split; try lra; gunf; apply vec_ext; cbn [vx vy vz]; ring.
  - unfold Capsule_ContainsTri. rewrite !andb_true_iff, !C50_contains. split.
    + intros [[A C] D] p P. eapply tri_convex; eauto.
    + intros A. destruct (tri_corners t) as (X & Y & Z). auto.
  - unfold Capsule_ContainsAABB. rewrite forallb_forall. split.
    + intros A p P. apply (box_hull _ b p CV); [|exact P]. intros i I. apply C50_contains. apply A. apply in_seq. simpl. Lia.lia.
    + intros A i I. apply in_seq in I. apply C50_contains. apply A. apply corner_in; [exact B|]. simpl in I. Lia.lia.
  - unfold Capsule_ContainsVertices. rewrite forallb_forall. split.
    + intros A p P. apply (P (in_capsule c)); [exact CV|]. intros v V. apply C50_contains. auto.
    + intros A v V. apply C50_contains. apply A. intros S CS HS. auto.
Qed.
Print Assumptions C50_contains_shapes.
Example C50_contains_witness : in_capsule (Cap (Seg (V3 0 0 0) (V3 4 0 0)) 1) (V3 2 1 0) /\ ~ in_capsule (Cap (Seg (V3 0 0 0) (V3 4 0 0)) 1) (V3 2 2 0) /\ box_ok (Box (V3 0 0 0 : pt) (V3 1 1 1)).
Proof.
  unfold in_capsule, box_ok. cbn [cap_l cap_r minPoint maxPoint vx vy vz]. split; [|split; [|lra]].
  - exists (V3 2 0 0). split; [exists (1/2); split; [lra|]; cbn [seg_a seg_b]; gunf; apply vec_ext; cbn [vx vy vz]; field|]. unfold dist. apply norm_sq_le; [lra|]. gunf. lra.
  - intros (q & (k & K & ->) & D). unfold dist in D. apply norm_sq_le in D; [|lra]. cbn [seg_a seg_b] in D. unfold dot, minus, plus, scale in D. cbn [vx vy vz] in D. nra.
Qed.

(** ** Distances and nearest points *)
Theorem C50_distances (c o : capsule R) (s : sphere R) (p : pt) : 0 <= cap_r c -> 0 <= cap_r o -> 0 <= srad s ->
  distance_is (in_capsule c) (single p) (Capsule_Distance c p) /\ distance_is (in_capsule c) (in_sphere s) (Capsule_DistanceSphere c s) /\
  (proper_seg (cap_l c) -> proper_seg (cap_l o) -> distance_is (in_capsule c) (in_capsule o) (Capsule_DistanceCapsule c o)).
Proof.
  intros Rc Ro Rs. assert (D : forall p, distance_is (in_capsule c) (single p) (Capsule_Distance c p)).
  { intros q. apply distance_sym. unfold Capsule_Distance. rewrite Max_R. exact (distance_fat _ _ _ _ (distance_sym _ _ _ (seg_distance (cap_l c) q)) Rc). }
  split; [apply D|]. split.
  - unfold Capsule_DistanceSphere. rewrite Max_R. apply (fat_ext _ _ _ _ (fat_sphere s)), (distance_fat _ _ _ _ (D (spos s)) Rs).
  - intros Pc Po. unfold Capsule_DistanceCapsule. rewrite Max_R. rsimpl. destruct (C43_distances_segment (cap_l c) (cap_l o) (Ln origin (V3 1 0 0)) (Ry origin (V3 1 0 0)) origin Pc Po ltac:(unfold unitv, dot; cbn; ring) ltac:(unfold unitv, dot; cbn; ring)) as (_ & _ & B & _).
    set (x := fst (fst (Seg_DistanceSeg (cap_l c) (cap_l o)))) in *. pose proof (distance_fat _ _ _ _ B Ro) as F1. apply distance_sym in F1. pose proof (distance_fat _ _ _ _ F1 Rc) as F2. apply distance_sym in F2.
    change (fun p0 : pt => exists q : pt, on_segment (cap_l c) q /\ dist q p0 <= cap_r c) with (in_capsule c) in F2. change (fun p0 : pt => exists q : pt, on_segment (cap_l o) q /\ dist q p0 <= cap_r o) with (in_capsule o) in F2.
    replace (Rmax 0 (x - cap_r c - cap_r o)) with (Rmax 0 (Rmax 0 (x - cap_r o) - cap_r c)); [exact F2|]. unfold Rmax. repeat destruct Rle_dec; lra.
Qed.
Print Assumptions C50_distances.
(** Outside points must be at least a thousandth away from the axis (always the case when r is at least that). *)
Theorem C50_closest (c : capsule R) (p : pt) : 0 <= cap_r c -> (in_capsule c p \/ forall q, on_segment (cap_l c) q -> 1 / 1000 <= dist q p) ->
  nearest (in_capsule c) p (Capsule_ClosestPoint c p).
Proof.
  intros Rc H. unfold Capsule_ClosestPoint. destruct (seg_nearest (cap_l c) p) as [Sq M]. set (q := fst (Seg_ClosestPoint (cap_l c) p)) in *. clearbody q. change (@DistanceSq R Num_R) with sqd. rsimpl.
  assert (Q : sqd q p = dist q p * dist q p) by (unfold dist; rewrite norm_sq; reflexivity). pose proof (norm_pos (minus q p)) as NP. fold (dist q p) in NP. rewrite Q. destruct (Rleb_spec (dist q p * dist q p) (cap_r c * cap_r c)) as [L|L].
  - split; [exists q; split; [exact Sq|nra]|]. intros a _. rewrite (proj2 (dist_zero p p) eq_refl). apply norm_pos.
  - assert (Out : cap_r c < dist q p) by nra. assert (F : 1 / 1000 <= dist q p).
    { destruct H as [(z & Z & D)|H]; [specialize (M z Z); lra|now apply H]. }
    change (@vadd R Num_R) with plus. change (@vsub R Num_R) with minus. assert (Nn : norm (minus p q) = dist q p) by (rewrite dist_sym; reflexivity).
    rewrite ScaledTo_R by (rewrite <- norm_sq, Nn; nra). rewrite Nn. assert (E1 : dist q (plus q (scale (cap_r c / dist q p) (minus p q))) = cap_r c) by (rewrite dist_plus, <- Nn; apply scaled_norm; lra).
    split; [exists q; split; [exact Sq|lra]|]. intros a (z & Z & D). specialize (M z Z).
    replace (dist (plus q (scale (cap_r c / dist q p) (minus p q))) p) with (dist q p - cap_r c).
    + pose proof (dist_triangle z a p). lra.
    + symmetry. unfold dist at 1. apply norm_is; [lra|].
      replace (minus (plus q (scale (cap_r c / dist q p) (minus p q))) p) with (scale (cap_r c / dist q p - 1) (minus p q)) by (gunf; apply vec_ext; cbn [vx vy vz]; ring).
      rewrite dot_scale_l, dot_scale_r, <- norm_sq, Nn. field. lra.
Qed.
Print Assumptions C50_closest.
