(** C51: oriented boxes: containment, nearest points, extreme points, projections, bounding volumes, local coordinates. *)
From Coq Require Import Reals Psatz List Bool.
From Verif Require Import Num NumR ScalarModel ScalarProofs Vec3Model GeoTypes GeoSpec GeoLemmas Vec3Props AabbModel AabbSpec AabbProofs AabbProps AabbProps2 MatModel MatSpec MatProofs MatProofs2 LineModel LineSpec LineProofs LineProofs2 LineProps
  RotModel RotSpec RotProofs PlaneModel PlaneSpec PlaneProps PlaneProps2 PlaneProps4 SphereModel SphereSpec SphereProps SphereProps2 TriangleModel TriangleSpec TriangleProps SatModel CircleModel CircleProps CapsuleModel CapsuleProps CapsuleProps3 ObbModel.
From Verif Require Vec2Props.
Import ListNotations.
Open Scope R_scope.
Ltac Zify.zify_post_hook ::= idtac.

(** ** The axes as a frame *)
Definition framed (o : obb R) : Prop := unitv (oaxis0 o) /\ unitv (oaxis1 o) /\ unitv (oaxis2 o) /\ orth (oaxis0 o) (oaxis1 o) /\ orth (oaxis0 o) (oaxis2 o) /\ orth (oaxis1 o) (oaxis2 o).
(** The point with given coordinates along the axes. *)
Definition at_ (o : obb R) (x y z : R) : pt := plus (opos o) (plus (scale x (oaxis0 o)) (plus (scale y (oaxis1 o)) (scale z (oaxis2 o)))).
Definition crd0 (o : obb R) (p : pt) : R := dot (minus p (opos o)) (oaxis0 o).
Definition crd1 (o : obb R) (p : pt) : R := dot (minus p (opos o)) (oaxis1 o).
Definition crd2 (o : obb R) (p : pt) : R := dot (minus p (opos o)) (oaxis2 o).
Lemma in_obb_at o x y z : - vx (orad o) <= x <= vx (orad o) -> - vy (orad o) <= y <= vy (orad o) -> - vz (orad o) <= z <= vz (orad o) -> in_obb o (at_ o x y z).
Proof. intros. exists x, y, z. repeat split; try apply H; try apply H0; apply H1. Qed.
Lemma expand (a b c w : pt) : unitv a -> unitv b -> unitv c -> orth a b -> orth a c -> orth b c ->
  w = plus (scale (dot w a) a) (plus (scale (dot w b) b) (scale (dot w c) c)).
Proof.
  intros U0 U1 U2 O1 O2 O3. pose proof (fun v => parseval a b c w v U0 U1 U2 O1 O2 O3) as P.
  pose proof (P (V3 1 0 0)) as X. pose proof (P (V3 0 1 0)) as Y. pose proof (P (V3 0 0 1)) as Z.
  assert (F : forall v : pt, dot v (V3 1 0 0) = vx v /\ dot v (V3 0 1 0) = vy v /\ dot v (V3 0 0 1) = vz v) by (intros; unfold dot; cbn [vx vy vz]; lra).
  destruct (F a) as (F1 & F2 & F3), (F b) as (G1 & G2 & G3), (F c) as (H1 & H2 & H3), (F w) as (I1 & I2 & I3).
  rewrite F1, G1, H1, I1 in X. rewrite F2, G2, H2, I2 in Y. rewrite F3, G3, H3, I3 in Z. rewrite (dot_comm w a), (dot_comm w b), (dot_comm w c).
  set (x0 := dot a w) in *. set (x1 := dot b w) in *. set (x2 := dot c w) in *. clear - X Y Z. clearbody x0 x1 x2. apply vec_ext; unfold plus, scale; cbn [vx vy vz]; lra.
Qed.
Lemma at_crd o p : framed o -> at_ o (crd0 o p) (crd1 o p) (crd2 o p) = p.
Proof.
  intros (U0 & U1 & U2 & O1 & O2 & O3). unfold at_, crd0, crd1, crd2. rewrite <- (expand (oaxis0 o) (oaxis1 o) (oaxis2 o) (minus p (opos o))) by assumption. gunf. apply vec_ext; cbn [vx vy vz]; ring.
Qed.
Lemma crd_at o x y z : framed o -> crd0 o (at_ o x y z) = x /\ crd1 o (at_ o x y z) = y /\ crd2 o (at_ o x y z) = z.
Proof.
  intros (U0 & U1 & U2 & O1 & O2 & O3). unfold crd0, crd1, crd2, at_. rewrite plus_minus_l. unfold unitv, orth in *. rewrite !dot_plus_l, !dot_scale_l, U0, U1, U2, (dot_comm (oaxis1 o) (oaxis0 o)), (dot_comm (oaxis2 o) (oaxis0 o)), (dot_comm (oaxis2 o) (oaxis1 o)), O1, O2, O3. lra.
Qed.
Definition within_r (r x : R) := - r <= x <= r.
Lemma in_obb_crd o p : framed o -> (in_obb o p <-> within_r (vx (orad o)) (crd0 o p) /\ within_r (vy (orad o)) (crd1 o p) /\ within_r (vz (orad o)) (crd2 o p)).
Proof.
  intros F. split.
  - intros (x & y & z & X & Y & Z & E). fold (at_ o x y z) in E. subst p. destruct (crd_at o x y z F) as (-> & -> & ->). repeat split; tauto.
  - intros (X & Y & Z). rewrite <- (at_crd o p F). now apply in_obb_at.
Qed.
(** Distances in coordinates. *)
Lemma dist_at o x y z x' y' z' : framed o -> dist (at_ o x y z) (at_ o x' y' z') * dist (at_ o x y z) (at_ o x' y' z') = (x - x') * (x - x') + (y - y') * (y - y') + (z - z') * (z - z').
Proof.
  intros (U0 & U1 & U2 & O1 & O2 & O3). unfold dist. rewrite norm_sq.
  replace (minus (at_ o x y z) (at_ o x' y' z')) with (plus (scale (x - x') (oaxis0 o)) (plus (scale (y - y') (oaxis1 o)) (scale (z - z') (oaxis2 o)))) by (unfold at_; gunf; apply vec_ext; cbn [vx vy vz]; ring).
  unfold unitv, orth in *. rewrite !dot_plus_l, !dot_plus_r, !dot_scale_l, !dot_scale_r, U0, U1, U2, (dot_comm (oaxis1 o) (oaxis0 o)), (dot_comm (oaxis2 o) (oaxis0 o)), (dot_comm (oaxis2 o) (oaxis1 o)), O1, O2, O3. ring.
Qed.
Lemma convex_obb o : convex_set (in_obb o).
Proof.
  intros p q k (x & y & z & X & Y & Z & ->) (x' & y' & z' & X' & Y' & Z' & ->) K. exists (x + k * (x' - x)), (y + k * (y' - y)), (z + k * (z' - z)).
  split; [split; nra|]. split; [split; nra|]. split; [split; nra|]. gunf. apply vec_ext; cbn [vx vy vz]; ring.
Qed.

Lemma lerp_at o x y z x' y' z' k : plus (at_ o x y z) (scale k (minus (at_ o x' y' z') (at_ o x y z))) = at_ o (x + k * (x' - x)) (y + k * (y' - y)) (z + k * (z' - z)).
Proof. unfold at_. gunf. apply vec_ext; cbn [vx vy vz]; ring. Qed.

(** ** Containment *)
Theorem C51_contains (o : obb R) (p : pt) : framed o -> (OBB_Contains o p = true <-> in_obb o p).
Proof.
  intros F. rewrite in_obb_crd by exact F. unfold OBB_Contains. rewrite !Abs_R. change (@Dot R Num_R) with dot. change (@vsub R Num_R) with minus. fold (crd0 o p). fold (crd1 o p). fold (crd2 o p). rsimpl.
  rewrite !andb_true_iff, !Rleb_true. unfold within_r. split.
  - intros [[X Y] Z]. now apply Rabs_le_inv2 in X, Y, Z.
  - intros (X & Y & Z). repeat split; apply Rabs_le; assumption.
Qed.
Print Assumptions C51_contains.
Lemma corners_R (o : obb R) (i : nat) : (i < 8)%nat ->
  OBB_CornerPoint o i = at_ o ((if Nat.testbit i 2 then 1 else -1) * vx (orad o)) ((if Nat.testbit i 1 then 1 else -1) * vy (orad o)) ((if Nat.testbit i 0 then 1 else -1) * vz (orad o)).
Proof. intros H. unfold OBB_CornerPoint, at_. cbv zeta. do 8 (destruct i as [|i]; [cbn [Nat.testbit Nat.odd Nat.even Nat.div2 negb]; vunf; gunf; rsimpl; apply vec_ext; cbn [vx vy vz]; ring|]). Lia.lia. Qed.
(** Corner [i]: bit 2 of the index chooses the side along axis 0, bit 1 along axis 1, bit 0 along axis 2. *)
Theorem C51_corners (o : obb R) (i : nat) : obb_ok o -> (i < 8)%nat -> in_obb o (OBB_CornerPoint o i) /\
  (framed o -> crd0 o (OBB_CornerPoint o i) = (if Nat.testbit i 2 then vx (orad o) else - vx (orad o)) /\ crd1 o (OBB_CornerPoint o i) = (if Nat.testbit i 1 then vy (orad o) else - vy (orad o)) /\
    crd2 o (OBB_CornerPoint o i) = (if Nat.testbit i 0 then vz (orad o) else - vz (orad o))).
Proof.
  intros (X & Y & Z) I. rewrite corners_R by exact I. split.
  - apply in_obb_at; destruct (Nat.testbit i _); lra.
  - intros F. destruct (crd_at o ((if Nat.testbit i 2 then 1 else -1) * vx (orad o)) ((if Nat.testbit i 1 then 1 else -1) * vy (orad o)) ((if Nat.testbit i 0 then 1 else -1) * vz (orad o)) F) as (-> & -> & ->).
    split; [|split]; destruct (Nat.testbit i _); ring.
Qed.
Print Assumptions C51_corners.
(** The box is the hull of its corners. *)
Lemma obb_hull (A : pt -> Prop) (o : obb R) p : convex_set A -> (forall i, (i < 8)%nat -> A (OBB_CornerPoint o i)) -> in_obb o p -> A p.
Proof.
  intros CV H (x & y & z & X & Y & Z & ->). fold (at_ o x y z).
  apply interp in X, Y, Z. destruct X as (i & I & ->), Y as (j & J & ->), Z as (k & K & ->). 
  assert (C : forall n, (n < 8)%nat -> A (at_ o ((if Nat.testbit n 2 then 1 else -1) * vx (orad o)) ((if Nat.testbit n 1 then 1 else -1) * vy (orad o)) ((if Nat.testbit n 0 then 1 else -1) * vz (orad o)))) by (intros n N; rewrite <- corners_R by exact N; auto).
  pose proof (C 0%nat ltac:(Lia.lia)) as C0; pose proof (C 1%nat ltac:(Lia.lia)) as C1; pose proof (C 2%nat ltac:(Lia.lia)) as C2; pose proof (C 3%nat ltac:(Lia.lia)) as C3.
  pose proof (C 4%nat ltac:(Lia.lia)) as C4; pose proof (C 5%nat ltac:(Lia.lia)) as C5; pose proof (C 6%nat ltac:(Lia.lia)) as C6; pose proof (C 7%nat ltac:(Lia.lia)) as C7.
  clear C H. cbn [Nat.testbit Nat.odd Nat.even Nat.div2 negb] in C0, C1, C2, C3, C4, C5, C6, C7.
  pose proof (CV _ _ _ C0 C1 K) as D0. pose proof (CV _ _ _ C2 C3 K) as D1. pose proof (CV _ _ _ C4 C5 K) as D2. pose proof (CV _ _ _ C6 C7 K) as D3.
  pose proof (CV _ _ _ D0 D1 J) as E0. pose proof (CV _ _ _ D2 D3 J) as E1. pose proof (CV _ _ _ E0 E1 I) as F. clear - F.
  rewrite !lerp_at in F. match goal with F : A (at_ _ ?a ?b ?c) |- A (at_ _ ?a' ?b' ?c') => replace a' with a by ring; replace b' with b by ring; replace c' with c by ring; exact F end.
Qed.
Lemma forall8 (P : nat -> bool) : forallb P (seq 0 8) = true <-> forall i, (i < 8)%nat -> P i = true.
Proof. rewrite forallb_forall. split; intros H i I; apply H; apply in_seq in I || apply in_seq; Lia.lia. Qed.
Lemma corners_all (A : pt -> Prop) (f : pt -> bool) (o : obb R) : convex_set A -> (forall p, f p = true <-> A p) -> obb_ok o ->
  (forallb f (OBB_GetCornerPoints o) = true <-> forall p, in_obb o p -> A p).
Proof.
  intros CV FA K. unfold OBB_GetCornerPoints. rewrite forallb_forall. split.
  - intros H p. apply obb_hull; [exact CV|]. intros i I. apply FA, H, in_map, in_seq. Lia.lia.
  - intros H x X. apply in_map_iff in X. destruct X as (i & <- & I). apply in_seq in I. apply FA, H, C51_corners; [exact K|Lia.lia].
Qed.
Theorem C51_contains_shapes (o q : obb R) (l : segment R) (t : triangle R) (b : aabb R) (vs : list pt) : framed o -> obb_ok q -> box_ok b ->
  (OBB_ContainsSeg o l = true <-> forall p, on_segment l p -> in_obb o p) /\
  (OBB_ContainsTri o t = true <-> forall p, in_triangle t p -> in_obb o p) /\
  (OBB_ContainsAABB o b = true <-> forall p, in_box b p -> in_obb o p) /\
  (OBB_ContainsOBB o q = true <-> forall p, in_obb q p -> in_obb o p) /\
  (OBB_ContainsVertices o vs = true <-> forall p, in_hull vs p -> in_obb o p).
Proof.
  intros F K B. pose proof (convex_obb o) as CV. assert (CT : forall p, OBB_Contains o p = true <-> in_obb o p) by (intros; now apply C51_contains). split; [|split; [|split; [|split]]].
  - unfold OBB_ContainsSeg. rewrite andb_true_iff, !CT. split.
    + intros [A C] p (k & H & ->). apply (CV _ _ _ A C H).
    + intros H. split; apply H; [exists 0|exists 1]; (split; [lra|]); gunf; apply vec_ext; cbn [vx vy vz]; ring.
  - unfold OBB_ContainsTri. rewrite !andb_true_iff, !CT. split.
    + intros [[A C] D] p P. now apply (tri_convex _ t CV A C D).
    + intros H. destruct (tri_corners t) as (Ta & Tb & Tc). repeat split; now apply H.
  - unfold OBB_ContainsAABB, OBB_ContainsVertices. rewrite forallb_forall. split.
    + intros H p. apply box_hull; [exact CV|]. intros i I. apply CT, H, in_map, in_seq. Lia.lia.
    + intros H x X. apply in_map_iff in X. destruct X as (i & <- & I). apply in_seq in I. apply CT, H, corner_in; [exact B|Lia.lia].
  - now apply corners_all.
  - unfold OBB_ContainsVertices. rewrite forallb_forall. split.
    + intros H p P. apply P; [exact CV|]. intros v V. apply CT. now apply H.
    + intros H v V. apply CT, H. intros A _ HA. now apply HA.
Qed.
Print Assumptions C51_contains_shapes.
(** Boxes, spheres and capsules containing an oriented box. *)
Theorem C51_contained (o : obb R) (b : aabb R) (s : sphere R) (c : capsule R) : obb_ok o -> 0 <= srad s ->
  (AABB_ContainsOBB b o = true <-> forall p, in_obb o p -> in_box b p) /\ (Sphere_ContainsOBB s o = true <-> forall p, in_obb o p -> in_sphere s p) /\ (Capsule_ContainsOBB c o = true <-> forall p, in_obb o p -> in_capsule c p).
Proof.
  intros K S. split; [|split].
  - unfold AABB_ContainsOBB, OBB_MinimalEnclosingAABB. destruct (C19_set_from_shapes o s K S) as [W _]. rewrite <- (W b).
    assert (NE : box_ok (AABB_FromOBB o)).
    { pose proof (proj1 (W (AABB_FromOBB o)) (fun p H => H) (at_ o 0 0 0)) as H. destruct K as (X & Y & Z). specialize (H ltac:(apply in_obb_at; lra)). unfold in_box in H. unfold box_ok. lra. }
    unfold AABB_ContainsAABB, AABB_ContainsMinMax, box_ok in *. rsimpl. rewrite !andb_true_iff, !Rleb_true. unfold in_box. split; [intros H p P; lra|]. intros H. pose proof (H (minPoint (AABB_FromOBB o))) as H1. pose proof (H (maxPoint (AABB_FromOBB o))) as H2. lra.
  - apply corners_all; [apply convex_sphere|intros; now apply SContains_R|exact K].
  - apply corners_all; [apply convex_capsule|intros; apply C50_contains|exact K].
Qed.
Print Assumptions C51_contained.

(** ** Nearest points *)
Lemma clamp_sq r x w : 0 <= r -> - r <= w <= r -> (x - Rmax (- r) (Rmin x r)) * (x - Rmax (- r) (Rmin x r)) <= (x - w) * (x - w).
Proof.
  intros A B. pose proof (Rle_0_sqr (x - w)) as Q. unfold Rsqr in Q. destruct (Rle_or_lt x r).
  - rewrite (Rmin_left x r) by lra. destruct (Rle_or_lt (- r) x); [rewrite Rmax_right by lra; replace (x - x) with 0 by ring; lra|rewrite Rmax_left by lra; nra].
  - rewrite (Rmin_right x r), Rmax_right by lra. nra.
Qed.
Lemma closest_R (o : obb R) (p : pt) : obb_ok o ->
  OBB_ClosestPoint o p = at_ o (Rmax (- vx (orad o)) (Rmin (crd0 o p) (vx (orad o)))) (Rmax (- vy (orad o)) (Rmin (crd1 o p) (vy (orad o)))) (Rmax (- vz (orad o)) (Rmin (crd2 o p) (vz (orad o)))).
Proof.
  intros (X & Y & Z). unfold OBB_ClosestPoint. cbv zeta. change (@Dot R Num_R) with dot. change (@vsub R Num_R) with minus. fold (crd0 o p). fold (crd1 o p). fold (crd2 o p). rsimpl.
  rewrite !Vec2Props.Clamp_R by lra. unfold at_. set (a := Rmax _ _). set (b := Rmax _ _). set (c := Rmax _ _). vunf. gunf. rsimpl. apply vec_ext; cbn [vx vy vz]; ring.
Qed.
Lemma clamp_in r x : 0 <= r -> - r <= Rmax (- r) (Rmin x r) <= r.
Proof. intros. unfold Rmax, Rmin. repeat destruct Rle_dec; lra. Qed.
Theorem C51_closest (o : obb R) (p : pt) : framed o -> obb_ok o -> let q := OBB_ClosestPoint o p in in_obb o q /\ (forall w, in_obb o w -> dist p q <= dist p w) /\ OBB_Distance o p = dist p q.
Proof.
  intros F K q. subst q. split; [|split; [|reflexivity]]; rewrite closest_R by exact K; destruct K as (X & Y & Z); [apply in_obb_at; now apply clamp_in|].
  intros w (x & y & z & Hx & Hy & Hz & ->). fold (at_ o x y z). pose proof (at_crd o p F) as E. set (a := crd0 o p) in *. set (b := crd1 o p) in *. set (c := crd2 o p) in *. clearbody a b c. subst p.
  apply dist_sq_mono; try apply dist_pos. rewrite !dist_at by exact F. pose proof (clamp_sq _ a x X Hx). pose proof (clamp_sq _ b y Y Hy). pose proof (clamp_sq _ c z Z Hz). lra.
Qed.
Print Assumptions C51_closest.
Theorem C51_sphere (o : obb R) (s : sphere R) : framed o -> obb_ok o -> 0 <= srad s ->
  (OBB_IntersectsSphere o s = true <-> exists p, in_obb o p /\ in_sphere s p) /\ distance_is (in_obb o) (in_sphere s) (OBB_DistanceSphere o s).
Proof.
  intros F K S. destruct (C51_closest o (spos s) F K) as (I & M & _). set (q := OBB_ClosestPoint o (spos s)) in *. split.
  - unfold OBB_IntersectsSphere. fold q. change (@DistanceSq R Num_R) with sqd. rsimpl. rewrite Rleb_true, sq_dist. split.
    + intros H. exists q. split; [exact I|]. unfold in_sphere. apply dist_sq_mono; [apply dist_pos|exact S|]. rewrite dist_sym. exact H.
    + intros (p & P & Sp). unfold in_sphere in Sp. specialize (M p P). pose proof (dist_pos (spos s) q). rewrite dist_sym. nra.
  - unfold OBB_DistanceSphere, OBB_Distance. fold q. rewrite Max_R. change (@Distance R Num_R) with dist. rsimpl. assert (D : distance_is (in_obb o) (single (spos s)) (dist (spos s) q)).
    { split; [exists q, (spos s); split; [exact I|]; split; [reflexivity|apply dist_sym]|]. intros a b A ->. rewrite (dist_sym a). now apply M. }
    apply (sphere_fat s) in D; [|exact S]. destruct D as [(a & b & A & B & E) L]. split; [exists b, a; split; [exact B|]; split; [exact A|]; rewrite dist_sym; exact E|]. intros x y X Y. rewrite (dist_sym x y). now apply L.
Qed.
Print Assumptions C51_sphere.
(** ** Extreme points, projections, planes *)
Definition reach (o : obb R) (n : pt) : R := Rabs (dot n (oaxis0 o)) * vx (orad o) + Rabs (dot n (oaxis1 o)) * vy (orad o) + Rabs (dot n (oaxis2 o)) * vz (orad o).
Lemma dot_at o x y z n : dot n (at_ o x y z) = dot n (opos o) + (x * dot n (oaxis0 o) + y * dot n (oaxis1 o) + z * dot n (oaxis2 o)).
Proof. unfold at_. rewrite !dot_plus_r, !dot_scale_r. ring. Qed.
Lemma project_R (o : obb R) (n : pt) : obb_ok o -> OBB_ProjectToAxis o n = (dot n (opos o) - reach o n, dot n (opos o) + reach o n).
Proof.
  intros (X & Y & Z). unfold OBB_ProjectToAxis, reach. rewrite !Abs_R. change (@Dot R Num_R) with dot. rsimpl. rewrite !Rabs_mult, (Rabs_pos_eq (vx _)), (Rabs_pos_eq (vy _)), (Rabs_pos_eq (vz _)) by assumption. f_equal; ring.
Qed.
Lemma extreme_R (o : obb R) (n : pt) : OBB_ExtremePoint o n = at_ o (if Rleb 0 (dot n (oaxis0 o)) then vx (orad o) else - vx (orad o)) (if Rleb 0 (dot n (oaxis1 o)) then vy (orad o) else - vy (orad o)) (if Rleb 0 (dot n (oaxis2 o)) then vz (orad o) else - vz (orad o)).
Proof. unfold OBB_ExtremePoint, at_. cbv zeta. change (@Dot R Num_R) with dot. rsimpl. set (a := if Rleb 0 (dot n (oaxis0 o)) then _ else _). set (b := if Rleb _ (dot n (oaxis1 o)) then _ else _). set (c := if Rleb _ (dot n (oaxis2 o)) then _ else _). vunf. gunf. rsimpl. apply vec_ext; cbn [vx vy vz]; ring. Qed.
Lemma reach_bound o n p : obb_ok o -> in_obb o p -> Rabs (dot n p - dot n (opos o)) <= reach o n.
Proof.
  intros (X & Y & Z) (x & y & z & Hx & Hy & Hz & ->). fold (at_ o x y z). rewrite dot_at. unfold reach.
  assert (B : forall r w u, 0 <= r -> - r <= w <= r -> - (Rabs u * r) <= w * u <= Rabs u * r) by (intros r w u R0 W; unfold Rabs; destruct Rcase_abs; nra).
  pose proof (B _ _ (dot n (oaxis0 o)) X Hx). pose proof (B _ _ (dot n (oaxis1 o)) Y Hy). pose proof (B _ _ (dot n (oaxis2 o)) Z Hz). apply Rabs_le. lra.
Qed.
Lemma reach_extreme o n : obb_ok o -> dot n (OBB_ExtremePoint o n) = dot n (opos o) + reach o n.
Proof.
  intros K. rewrite extreme_R, dot_at. unfold reach. f_equal.
  assert (B : forall r u, (if Rleb 0 u then r else - r) * u = Rabs u * r) by (intros r u; destruct (Rleb_spec 0 u); [rewrite Rabs_pos_eq by assumption|rewrite Rabs_left1 by lra]; ring). rewrite !B. ring.
Qed.
Lemma extreme_in o n : obb_ok o -> in_obb o (OBB_ExtremePoint o n).
Proof. intros (X & Y & Z). rewrite extreme_R. apply in_obb_at; destruct (Rleb _ _); lra. Qed.
Theorem C51_extreme (o : obb R) (d : pt) : obb_ok o -> let e := OBB_ExtremePoint o d in in_obb o e /\ (forall p, in_obb o p -> dot d p <= dot d e) /\ OBB_ExtremePointDist o d = (e, dot e d).
Proof.
  intros K e. subst e. split; [now apply extreme_in|]. split; [|reflexivity]. intros p P. rewrite reach_extreme by exact K. pose proof (reach_bound o d p K P) as H. pose proof (Rle_abs (dot d p - dot d (opos o))). lra.
Qed.
Print Assumptions C51_extreme.
Lemma reach_opp o n : reach o (scale (-1) n) = reach o n.
Proof. unfold reach. rewrite !dot_scale_l, !Rabs_mult, (Rabs_left (-1)) by lra. ring. Qed.
Lemma obb_range o n : obb_ok o -> range_of n (in_obb o) (dot n (opos o) - reach o n) (dot n (opos o) + reach o n).
Proof.
  intros K. apply range_convex; [apply convex_obb| | |].
  - intros p P. pose proof (reach_bound o n p K P) as H. apply Rabs_le_inv2 in H. lra.
  - exists (OBB_ExtremePoint o (scale (-1) n)). split; [now apply extreme_in|]. pose proof (reach_extreme o (scale (-1) n) K) as E. rewrite reach_opp, !dot_scale_l in E. lra.
  - exists (OBB_ExtremePoint o n). split; [now apply extreme_in|now apply reach_extreme].
Qed.
(** ProjectToAxis: the projection of the box onto any direction is exactly the returned interval. *)
Theorem C51_project (o : obb R) (n : pt) : obb_ok o -> let '(lo, hi) := OBB_ProjectToAxis o n in lo <= hi /\ forall x, lo <= x <= hi <-> exists p, in_obb o p /\ dot n p = x.
Proof. intros K. rewrite project_R by exact K. exact (obb_range o n K). Qed.
Print Assumptions C51_project.
Theorem C51_plane (o : obb R) (P : plane R) : obb_ok o -> unitv (pnormal P) ->
  signed_distance_is P (in_obb o) (Plane_SignedDistanceOBB P o) /\ (OBB_IntersectsPlane o P = true <-> exists p, in_obb o p /\ on_plane P p).
Proof.
  intros K U. split.
  - unfold Plane_SignedDistanceOBB. rewrite project_R by exact K. apply range_signed; [exact U|now apply obb_range].
  - unfold OBB_IntersectsPlane. rewrite !Abs_R. change (@Dot R Num_R) with dot. rsimpl. rewrite Rleb_true. destruct (obb_range o (pnormal P) K) as [_ G]. unfold on_plane. rewrite <- (G (pd P)). unfold reach.
    set (h := dot (pnormal P) (opos o)). set (a := Rabs (dot _ _)). set (b := Rabs (dot _ (oaxis1 _))). set (c := Rabs (dot _ (oaxis2 _))). split; [intros H; apply Rabs_le_inv2 in H; lra|intros H; apply Rabs_le; lra].
Qed.
Print Assumptions C51_plane.
(** ** Bounding volumes *)
Theorem C51_bounds (o : obb R) : framed o -> obb_ok o ->
  (forall b, (forall p, in_box (OBB_MinimalEnclosingAABB o) p -> in_box b p) <-> (forall p, in_obb o p -> in_box b p)) /\
  (let s := OBB_MinimalEnclosingSphere o in (forall p, in_obb o p -> in_sphere s p) /\ forall s', (forall p, in_obb o p -> in_sphere s' p) -> srad s <= srad s') /\
  (let s := OBB_MaximalContainedSphere o in (forall p, in_sphere s p -> in_obb o p) /\ forall s', 0 <= srad s' -> (forall p, in_sphere s' p -> in_obb o p) -> srad s' <= srad s).
Proof.
  intros F K. split; [|split].
  - intros b. destruct (C19_set_from_shapes o (Sph origin 0) K (Rle_refl 0)) as [W _]. apply W.
  - pose proof K as (X & Y & Z). intros s. assert (N : srad s * srad s = vx (orad o) * vx (orad o) + vy (orad o) * vy (orad o) + vz (orad o) * vz (orad o)).
    { unfold s, OBB_MinimalEnclosingSphere. cbn [srad]. change (@Length R Num_R) with norm. replace (OBB_HalfDiagonal o) with (minus (at_ o (vx (orad o)) (vy (orad o)) (vz (orad o))) (at_ o 0 0 0)) by (unfold OBB_HalfDiagonal, at_; vunf; gunf; rsimpl; apply vec_ext; cbn [vx vy vz]; ring).
      fold (dist (at_ o (vx (orad o)) (vy (orad o)) (vz (orad o))) (at_ o 0 0 0)). rewrite dist_at by exact F. ring. }
    assert (S0 : 0 <= srad s) by apply norm_pos. assert (C0 : spos s = at_ o 0 0 0) by (unfold at_; cbn [spos s OBB_MinimalEnclosingSphere]; gunf; apply vec_ext; cbn [vx vy vz]; ring). split.
    + intros p (x & y & z & Hx & Hy & Hz & ->). fold (at_ o x y z). unfold in_sphere. rewrite C0. apply dist_sq_mono; [apply dist_pos|exact S0|]. rewrite dist_at, N by exact F. nra.
    + intros s' H. assert (A : in_obb o (at_ o (vx (orad o)) (vy (orad o)) (vz (orad o)))) by (apply in_obb_at; lra). assert (B : in_obb o (at_ o (- vx (orad o)) (- vy (orad o)) (- vz (orad o)))) by (apply in_obb_at; lra).
      apply H in A, B. unfold in_sphere in A, B. set (pa := at_ o (vx (orad o)) (vy (orad o)) (vz (orad o))) in *. set (pb := at_ o (- vx (orad o)) (- vy (orad o)) (- vz (orad o))) in *.
      assert (D : dist pa pb * dist pa pb = 4 * (srad s * srad s)) by (unfold pa, pb; rewrite dist_at, N by exact F; ring). pose proof (dist_triangle pa (spos s') pb). rewrite (dist_sym pa (spos s')) in H0. pose proof (dist_pos pa pb). nra.
  - pose proof K as (X & Y & Z). intros s. assert (SR : srad s = Rmin (Rmin (vx (orad o)) (vy (orad o))) (vz (orad o))) by (unfold s, OBB_MaximalContainedSphere, MinElement; cbn [srad]; now rewrite !Min_R). split.
    + intros p P. apply (in_obb_crd o p F). unfold in_sphere in P. change (spos s) with (opos o) in P. rewrite dist_sym in P. unfold dist in P. destruct F as (U0 & U1 & U2 & _).
      pose proof (cauchy (minus p (opos o)) (oaxis0 o)) as C0. pose proof (cauchy (minus p (opos o)) (oaxis1 o)) as C1. pose proof (cauchy (minus p (opos o)) (oaxis2 o)) as C2. rewrite (unit_norm1 _ U0), Rmult_1_r in C0. rewrite (unit_norm1 _ U1), Rmult_1_r in C1. rewrite (unit_norm1 _ U2), Rmult_1_r in C2.
      fold (crd0 o p) in C0. fold (crd1 o p) in C1. fold (crd2 o p) in C2. unfold within_r. rewrite SR in P. pose proof (Rmin_l (Rmin (vx (orad o)) (vy (orad o))) (vz (orad o))). pose proof (Rmin_r (Rmin (vx (orad o)) (vy (orad o))) (vz (orad o))).
      pose proof (Rmin_l (vx (orad o)) (vy (orad o))). pose proof (Rmin_r (vx (orad o)) (vy (orad o))). split; [|split]; apply Rabs_le_inv2; lra.
    + intros s' S' H. assert (G : forall a : pt, unitv a -> in_sphere s' (plus (spos s') (scale (srad s') a)) /\ in_sphere s' (plus (spos s') (scale (- srad s') a))).
      { intros a U. unfold in_sphere. rewrite !dist_plus, !norm_scale, (unit_norm1 a U), Rabs_Ropp, !(Rabs_pos_eq (srad s')) by exact S'. lra. }
      destruct F as (U0 & U1 & U2 & F'). assert (F : framed o) by (unfold framed; tauto). rewrite SR.
      destruct (G _ U0) as [A0 B0]. destruct (G _ U1) as [A1 B1]. destruct (G _ U2) as [A2 B2]. apply H in A0, B0, A1, B1, A2, B2. rewrite in_obb_crd in A0, B0, A1, B1, A2, B2 by exact F. unfold within_r in *.
      assert (E : forall (w a : pt) r, unitv a -> dot (minus (plus w (scale r a)) (opos o)) a = dot (minus w (opos o)) a + r).
      { intros w a r U. unfold unitv in U. transitivity (dot (minus w (opos o)) a + r * dot a a); [gunf; ring|rewrite U; ring]. }
      destruct A0 as [A0 _], B0 as [B0 _], A1 as [_ [A1 _]], B1 as [_ [B1 _]], A2 as [_ [_ A2]], B2 as [_ [_ B2]]. unfold crd0 in A0, B0. unfold crd1 in A1, B1. unfold crd2 in A2, B2. rewrite E in A0, B0 by exact U0. rewrite E in A1, B1 by exact U1. rewrite E in A2, B2 by exact U2.
      repeat apply Rmin_glb; lra.
Qed.
Print Assumptions C51_bounds.
