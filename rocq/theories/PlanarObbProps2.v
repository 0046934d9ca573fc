(** C108 continued: one edge fixed, the small cases, and the inputs for which the box is wrong. *)
From Coq Require Import Reals Lra Psatz Bool List Lia PeanoNat.
From Verif Require Import Num NumR ScalarModel ScalarProofs Vec2Model Vec2Spec Vec2Props HullModel HullSpec HullProofs HullProofs2 HullProps2 MinRectModel MinRectSpec MinRectProofs MinRectProofs2 MinRectProofs3 MinRectProps
  Vec3Model GeoTypes GeoSpec GeoLemmas Vec3Props AabbSpec AabbProofs MatSpec MatProofs MatProofs2 PlaneProps ObbModel ObbProps ObbProps7 PlanarObbModel PlanarObbProofs PlanarObbProps.
Import ListNotations.
Open Scope R_scope.
Ltac Zify.zify_post_hook ::= idtac.

(** The part of d across the unit direction m. *)
Definition across (m d : pt) : pt := minus d (scale (dot m d) m).
Lemma across_orth m d : unitv m -> dot m (across m d) = 0.
Proof. intros U. unfold across. rewrite dot_minus_r, dot_scale_r, U. ring. Qed.
Lemma prj_across u v m p q : frame3 u v m -> dst (prj u v p) (prj u v q) = norm (across m (minus p q)).
Proof.
  intros F. pose proof F as (_ & _ & UM & MU & MV & _). unfold dst, nrm, norm. f_equal. rewrite <- (prj_dt u v m F) by (now apply across_orth).
  assert (E : prj u v (across m (minus p q)) = mi (prj u v p) (prj u v q)); [|rewrite E; reflexivity].
  unfold prj, across, mi. cbn [x2 y2]. unfold orth in *. rewrite !dot_minus_r, !dot_scale_r, (dot_comm u m), (dot_comm v m), MU, MV. f_equal; ring.
Qed.
Lemma tight_in_box d pts lo hi c r : tight d pts lo hi -> (forall p, In p pts -> c - r <= dot p d <= c + r) -> hi - lo <= 2 * r.
Proof. intros (_ & (p & P & P1) & (q & Q & Q1)) B. pose proof (B p P). pose proof (B q Q). lra. Qed.
(** The smallest box among those with an axis along the edge. *)
Theorem C108_one_edge (fuel : nat) (edge : pt) (pts : list pt) : unitv edge -> pts <> [] -> (4 * length pts < fuel)%nat ->
  (forall p q, In p pts -> In q pts -> across edge (minus p q) <> origin -> 1 / 1000 < norm (across edge (minus p q))) ->
  exists o, SmallestOBBVolumeOneEdgeFixed fuel edge pts = Some o /\ framed o /\ obb_ok o /\ pm edge (oaxis2 o) /\ (forall p, In p pts -> in_obb o p) /\
    forall o', framed o' -> obb_ok o' -> pm edge (oaxis2 o') -> (forall p, In p pts -> in_obb o' p) -> vx (orad o) * vy (orad o) * vz (orad o) <= vx (orad o') * vy (orad o') * vz (orad o').
Proof.
  intros UM N FU A. set (m := edge) in *. clearbody m. pose proof (basis_frame m UM) as F. unfold SmallestOBBVolumeOneEdgeFixed. destruct (PerpendicularBasis m) as [u v] eqn:B. cbn [fst snd] in F. rewrite planarPts_R.
  destruct (C107_smallest (map (prj u v) pts) fuel) as (r & E & SR); [destruct pts; [contradiction|discriminate]| |rewrite map_length; exact FU|].
  { intros a b IA IB NE. apply in_map_iff in IA, IB. destruct IA as (p & <- & P). destruct IB as (q & <- & Q). rewrite (prj_across u v m p q F). apply A; [exact P|exact Q|]. intros Z. apply NE. apply dst_zero. rewrite (prj_across u v m p q F), Z. now apply norm_zero. }
  rewrite E. change (@planarLift R Num_R) with lift. destruct SR as (U1 & U2 & O & BX & (TU1 & TU2 & TV1 & TV2) & AR & _ & _ & L).
  set (f := lift u v (ru r)) in *. set (s := lift u v (rv r)) in *.
  assert (UF : unitv f) by (unfold unitv, f; rewrite (lift_lift u v m F); exact U1). assert (US : unitv s) by (unfold unitv, s; rewrite (lift_lift u v m F); exact U2).
  assert (MF : dot m f = 0) by apply (lift_m u v m F). assert (MS : dot m s = 0) by apply (lift_m u v m F). assert (FS : dot f s = 0) by (unfold f, s; rewrite (lift_lift u v m F); exact O).
  destruct (fixed_sizes pts f s N UF US FS) as (o & EO & AX & SX & SY & SZ). exists o. split; [exact EO|].
  pose proof (C51_fixed_orientation pts f s UF US FS) as FO. rewrite EO in FO. destruct FO as (F1 & F2 & A0 & A1 & F3 & _). split; [exact F1|]. split; [exact F2|].
  assert (CR : pm m (cross f s)).
  { assert (X : cross f s = scale (dot m (cross f s)) m) by (now apply cross_parallel). assert (Q : dot m (cross f s) * dot m (cross f s) = 1).
    { assert (Y : dot (cross f s) (cross f s) = 1) by (rewrite cross_sq; unfold unitv in *; rewrite UF, US, FS; ring). rewrite X in Y. rewrite dot_scale_l, dot_scale_r, UM in Y. lra. }
    assert (K : dot m (cross f s) = 1 \/ dot m (cross f s) = -1). { assert (Z : (dot m (cross f s) - 1) * (dot m (cross f s) + 1) = 0) by lra. destruct (Rmult_integral _ _ Z); [left|right]; lra. }
    destruct K as [K|K]; rewrite K in X; [left; rewrite X; apply scale_1|right; exact X]. }
  split; [rewrite AX; exact CR|]. split; [exact F3|].
  assert (PF : forall p, dot p f = dt (ru r) (prj u v p)) by (intros; apply lift_dot). assert (PS : forall p, dot p s = dt (rv r) (prj u v p)) by (intros; apply lift_dot).
  assert (Lift : forall (d : p2) (z : R), (exists q, In q (map (prj u v) pts) /\ dt d q = z) -> exists p, In p pts /\ dt d (prj u v p) = z). { intros d z (q & Q & Z). apply in_map_iff in Q. destruct Q as (p & <- & P). now exists p. }
  assert (TF : tight f pts (rminU r) (rmaxU r)).
  { split; [intros p P; rewrite PF; apply (BX (prj u v p)), in_map, P|]. split; [destruct (Lift _ _ TU1) as (p & P & Z)|destruct (Lift _ _ TU2) as (p & P & Z)]; exists p; rewrite PF; auto. }
  assert (TS : tight s pts (rminV r) (rmaxV r)).
  { split; [intros p P; rewrite PS; apply (BX (prj u v p)), in_map, P|]. split; [destruct (Lift _ _ TV1) as (p & P & Z)|destruct (Lift _ _ TV2) as (p & P & Z)]; exists p; rewrite PS; auto. }
  specialize (SX _ _ TF). specialize (SY _ _ TS).
  destruct (extreme_some (cross f s) pts N) as (i & j & lo & hi & EX). destruct (extreme_tight _ _ _ _ _ _ EX) as [TC _]. specialize (SZ _ _ TC).
  intros o' F1' OK' PM' IN'. pose proof F1' as (G0 & G1 & G2 & G3 & G4 & G5). assert (CRD := fun p P => proj1 (in_obb_crd o' p F1') (IN' p P)). unfold within_r, crd0, crd1, crd2 in CRD.
  assert (M0 : dot m (oaxis0 o') = 0 /\ dot m (oaxis1 o') = 0).
  { unfold orth in *. rewrite (dot_comm (oaxis0 o')) in G4. rewrite (dot_comm (oaxis1 o')) in G5. destruct PM' as [X|X]; rewrite X in G4, G5; [auto|]. rewrite dot_scale_l in G4, G5. lra. }
  assert (H : rarea r <= 2 * vx (orad o') * (2 * vy (orad o'))).
  { apply (box_area u v m F r pts (oaxis0 o') (oaxis1 o') (dot (opos o') (oaxis0 o')) (dot (opos o') (oaxis1 o')) (vx (orad o')) (vy (orad o')) L); try assumption; try apply M0.
    intros p P. destruct (CRD p P) as (I0 & I1 & _). rewrite dot_minus_l in I0, I1. lra. }
  assert (Z : 2 * vz (orad o) <= 2 * vz (orad o')).
  { rewrite SZ. assert (K : exists sg, (sg = 1 \/ sg = -1) /\ cross f s = scale sg (oaxis2 o')). { assert (I1 : forall x : pt, scale 1 x = x) by (intros; apply scale_1). destruct CR as [-> | ->], PM' as [-> | ->]; [exists 1|exists (-1)|exists (-1)|exists 1]; (split; [auto|]); apply vec_ext; unfold scale; cbn; ring. }
    destruct K as (sg & SG & KE). apply (tight_in_box (cross f s) pts lo hi (sg * dot (opos o') (oaxis2 o'))); [exact TC|]. intros p P. destruct (CRD p P) as (_ & _ & I2). rewrite dot_minus_l in I2. rewrite KE, dot_scale_r. destruct SG as [-> | ->]; lra. }
  rewrite AR, <- SX, <- SY in H. destruct OK' as (K0 & K1 & K2). destruct F2 as (J0 & J1 & J2).
  assert (XY : vx (orad o) * vy (orad o) <= vx (orad o') * vy (orad o')) by lra. apply Rmult_le_compat; [now apply Rmult_le_pos|exact J2|exact XY|lra].
Qed.
Print Assumptions C108_one_edge.
(** A tetrahedron seen along z. *)
Example C108_one_edge_witness : let pts := [V3 0 0 0; V3 1 0 0; V3 0 1 1; V3 0 1 2] in unitv (V3 0 0 1) /\ pts <> [] /\
  forall p q, In p pts -> In q pts -> across (V3 0 0 1) (minus p q) <> origin -> 1 / 1000 < norm (across (V3 0 0 1) (minus p q)).
Proof.
  cbv zeta. split; [unfold unitv, dot; cbn; ring|]. split; [discriminate|].
  assert (D : forall x : pt, 1 <= dot x x -> 1/1000 < norm x). { intros x H. unfold norm. replace (1/1000) with (sqrt (1/1000 * (1/1000))) by (apply sqrt_square; lra). apply sqrt_lt_1_alt. lra. }
  intros p q P Q NE. cbn [In] in P, Q. repeat (destruct P as [P|P]; [|]); try contradiction; repeat (destruct Q as [Q|Q]; [|]); try contradiction; subst;
    first [apply D; unfold across, minus, scale, dot; cbn [vx vy vz]; lra|exfalso; apply NE; unfold across, minus, scale, dot, origin; cbn [vx vy vz]; apply vec_ext; cbn [vx vy vz]; ring].
Qed.
(** A unit square in the plane z = 3, with its corners in any order that spans something. *)
Example C108_planar_witness : let pts := [V3 0 0 3; V3 1 0 3; V3 0 1 3; V3 1 1 3] in unitv (V3 0 0 1) /\ coplanar (V3 0 0 1) pts /\ apart3 pts /\ spread pts.
Proof.
  cbv zeta. assert (D : forall x : pt, 1 <= dot x x -> 1/1000 < norm x). { intros x H. unfold norm. replace (1/1000) with (sqrt (1/1000 * (1/1000))) by (apply sqrt_square; lra). apply sqrt_lt_1_alt. lra. }
  split; [unfold unitv, dot; cbn; ring|]. split; [|split].
  - intros p q P Q. cbn [In] in P, Q. repeat (destruct P as [P|P]; [|]); try contradiction; repeat (destruct Q as [Q|Q]; [|]); try contradiction; subst; unfold dot, minus; cbn [vx vy vz]; ring.
  - intros p q P Q NE. cbn [In] in P, Q. unfold dist. repeat (destruct P as [P|P]; [|]); try contradiction; repeat (destruct Q as [Q|Q]; [|]); try contradiction; subst; first [exfalso; apply NE; reflexivity|apply D; unfold dot, minus; cbn [vx vy vz]; lra].
  - exists [], (V3 0 0 3), (V3 1 0 3), (V3 0 1 3), [V3 1 1 3]. split; [reflexivity|]. assert (1/1000 < norm (cross (minus (V3 0 1 3) (V3 0 0 3)) (minus (V3 0 1 3) (V3 1 0 3)))) by (apply D; unfold cross, dot, minus; cbn [vx vy vz]; lra). lra.
Qed.
(** ** One and two points *)
Theorem C108_one_point (rounds fuel : nat) (p : pt) : exists o, OptimalEnclosingOBB_flat rounds fuel [p] = Some o /\ framed o /\ forall q, in_obb o q <-> q = p.
Proof.
  eexists. split; [reflexivity|]. rsimpl. split; [unfold framed, unitv, orth, dot; cbn; repeat split; ring|]. intros q. split.
  - intros (x & y & z & X & Y & Z & ->). cbn [orad vx vy vz opos oaxis0 oaxis1 oaxis2] in *. assert (x = 0) by lra. assert (y = 0) by lra. assert (z = 0) by lra. subst. apply vec_ext; unfold plus, scale; cbn; ring.
  - intros ->. exists 0, 0, 0. cbn [orad vx vy vz opos oaxis0 oaxis1 oaxis2]. repeat split; try lra. apply vec_ext; unfold plus, scale; cbn; ring.
Qed.
Print Assumptions C108_one_point.
(** Two points: the segment, when their distance is exactly 1 .. *)
Theorem C108_two_points_actual (rounds fuel : nat) (p q : pt) : dist p q = 1 -> exists o, OptimalEnclosingOBB_flat rounds fuel [p; q] = Some o /\ framed o /\ obb_ok o /\ in_obb o p /\ in_obb o q /\ vx (orad o) = 1 / 2 /\ vy (orad o) = 0 /\ vz (orad o) = 0.
Proof.
  intros D. assert (D2 : norm (minus q p) = 1) by (rewrite <- D; apply dist_sym). assert (U : unitv (minus q p)) by (unfold unitv; rewrite <- norm_sq, D2; ring).
  unfold OptimalEnclosingOBB_flat. cbv zeta. change (vsub q p) with (minus q p). pose proof (basis_frame _ U) as F. destruct (PerpendicularBasis (minus q p)) as [a b]. cbn [fst snd] in F. rewrite Normalize_split, (Normalized_unit _ U), D2, (proj2 (Rltb_true _ _)) by lra.
  eexists. split; [reflexivity|]. destruct F as (UA & UB & _ & A & B & C). change (@nhalf R Num_R) with (1/2). rsimpl.
  split; [unfold framed; cbn [oaxis0 oaxis1 oaxis2]; repeat split; assumption|]. split; [unfold obb_ok; cbn [orad vx vy vz]; lra|]. split; [|split].
  - exists (-1/2), 0, 0. cbn [orad vx vy vz opos oaxis0 oaxis1 oaxis2]. repeat split; try lra. apply vec_ext; unfold plus, scale, minus, vadd, vmuls; cbn; rsimpl; field.
  - exists (1/2), 0, 0. cbn [orad vx vy vz opos oaxis0 oaxis1 oaxis2]. repeat split; try lra. apply vec_ext; unfold plus, scale, minus, vadd, vmuls; cbn; rsimpl; field.
  - cbn [orad vx vy vz]. repeat split; lra.
Qed.
Print Assumptions C108_two_points_actual.
(** .. otherwise the basis is taken before the axis is normalized: the axes are not orthogonal and the box does not contain its own points. *)
Theorem C108_two_points_refuted : exists p q : pt, forall rounds fuel, exists o, OptimalEnclosingOBB_flat rounds fuel [p; q] = Some o /\ ~ orth (oaxis0 o) (oaxis1 o) /\ OBB_Contains o p = false /\ OBB_Contains o q = false.
Proof.
  exists (V3 0 0 0), (V3 2 0 0). intros rounds fuel. unfold OptimalEnclosingOBB_flat. cbv zeta. change (vsub (V3 2 0 0) (V3 0 0 0)) with (minus (V3 2 0 0) (V3 0 0 0)).
  assert (M : minus (V3 2 0 0) (V3 0 0 0) = V3 2 0 0) by (apply vec_ext; unfold minus; cbn; ring). rewrite M.
  assert (B : PerpendicularBasis (V3 2 0 0) = (V3 (-3) 0 (-2), V3 0 1 0)).
  { unfold PerpendicularBasis. cbn [vx vy vz]. cbv zeta. rsimpl. rewrite (proj2 (Rleb_true _ _)) by lra. f_equal; apply vec_ext; cbn; field. }
  rewrite B. assert (NM : norm (V3 2 0 0) = 2) by (unfold norm, dot; cbn; replace (2 * 2 + 0 * 0 + 0 * 0) with (2 * 2) by ring; apply sqrt_square; lra).
  rewrite Normalize_split, Normalized_R, NM, (proj2 (Rltb_true _ _)) by lra. eexists. split; [reflexivity|]. change (@nhalf R Num_R) with (1/2). rsimpl. split.
  - unfold orth, dot, scale. cbn. lra.
  - assert (X : forall z : pt, vx z = 0 \/ vx z = 2 -> vz z = 0 -> OBB_Contains (Obb (vmuls (vadd (V3 0 0 0) (V3 2 0 0)) (1/2)) (V3 (2 * (1/2)) 0 0) (scale (/2) (V3 2 0 0)) (V3 (-3) 0 (-2)) (V3 0 1 0)) z = false).
    { intros z Z ZZ. unfold OBB_Contains. cbn [opos orad oaxis0 oaxis1 oaxis2 vx vy vz]. rewrite !Abs_R. apply andb_false_iff. left. apply andb_false_iff. right. rsimpl. apply Rleb_false.
      match goal with |- _ < Rabs ?t => replace t with (-3 * (vx z - 1)) by (unfold Dot, vsub, vmuls, vadd; cbn [vx vy vz]; rsimpl; rewrite ZZ; field) end. destruct Z as [-> | ->]; unfold Rabs; destruct (Rcase_abs _); lra. }
    split; apply X; cbn; auto.
Qed.
Print Assumptions C108_two_points_refuted.
(** ** Points on a line *)
(** Three points on the z axis: the accumulated normal is zero, one axis of the result is the zero vector and the box misses two of the points. *)
Theorem C108_collinear_refuted : let pts := [V3 0 0 0; V3 0 0 1; V3 0 0 2] in forall rounds fuel, (3 <= rounds)%nat -> (8 < fuel)%nat ->
  exists o, OptimalEnclosingOBB_flat rounds fuel pts = Some o /\ oaxis0 o = origin /\ ~ in_obb o (V3 0 0 1) /\ ~ in_obb o (V3 0 0 2).
Proof.
  cbv zeta. intros rounds fuel RN FU. set (pts := [V3 0 0 0; V3 0 0 1; V3 0 0 2]). change (OptimalEnclosingOBB_flat rounds fuel pts) with (SmallestOBBVolume2DPlanar rounds fuel pts).
  assert (N : pts <> []) by discriminate. unfold SmallestOBBVolume2DPlanar, SmallestOBBVolumeJiggle. change (V3 n0 n0 n0) with origin.
  assert (PN : planarNormal origin pts = origin).
  { unfold pts. rewrite normal_cons. cbv zeta. assert (Z : norm (cross (minus (V3 0 0 2) (V3 0 0 0)) (minus (V3 0 0 2) (V3 0 0 1))) = 0) by (apply norm_zero; apply vec_ext; unfold cross, minus, origin; cbn; ring). rewrite Z, (proj2 (Rltb_false _ _)) by lra. reflexivity. }
  rewrite PN. set (u := V3 1 0 0 : pt). set (v := V3 0 1 0 : pt). set (m := V3 0 0 1 : pt).
  assert (B : PerpendicularBasis origin = (u, v)). { unfold PerpendicularBasis, origin, u, v. cbn [vx vy vz]. cbv zeta. rsimpl. rewrite (proj2 (Rleb_true _ _)) by lra. f_equal; apply vec_ext; cbn; field. }
  assert (F : frame3 u v m) by (unfold frame3, unitv, orth, dot, u, v, m; cbn; repeat split; ring).
  assert (CX : coplanar u pts /\ coplanar v pts /\ coplanar origin pts) by (repeat split; intros p q P Q; unfold pts in P, Q; cbn [In] in P, Q; repeat (destruct P as [P|P]; [|]); try contradiction; repeat (destruct Q as [Q|Q]; [|]); try contradiction; subst p q; unfold dot, minus, u, v, origin; cbn; ring).
  destruct CX as (CU & CV & CO).
  destruct (rect_line fuel (map (prj u v) pts)) as (r & E); [discriminate| |exact FU|].
  { apply (flat_line u v m u); [exact F|apply F| |exact CU]. unfold dot, m, u. cbn. ring. }
  destruct (rect_orthonormal _ _ _ E) as (U1 & U2 & O). destruct rounds as [|k]; [lia|]. cbn [jiggleLoop jmiss Nat.leb].
  destruct (jig_step fuel pts (Jig origin 0 None origin origin origin) u v m r N B F E) as (vol & _ & V0 & J). rewrite J. cbn [jbest jedge]. rewrite (V0 CO).
  set (f := lift u v (ru r)) in *. set (s := lift u v (rv r)) in *.
  assert (UF : unitv f) by (unfold unitv, f; rewrite (lift_lift u v m F); exact U1). assert (US : unitv s) by (unfold unitv, s; rewrite (lift_lift u v m F); exact U2). assert (FS : dot f s = 0) by (unfold f, s; rewrite (lift_lift u v m F); exact O).
  (* the two last rounds look along f and s: the points are on a line seen from there *)
  assert (LineU : forall x : pt, unitv x -> dot m x = 0 -> exists c d : R, dot x (plus (scale c u) (scale d v)) = 0 /\ unitv (plus (scale c u) (scale d v))).
  { intros x UX MX. exists (- vy x), (vx x). unfold unitv, dot, m, u, v, plus, scale in *. cbn [vx vy vz] in *. split; [ring|]. assert (Z : vz x = 0) by lra. rewrite Z in UX. lra. }
  assert (Rect : forall x, unitv x -> dot m x = 0 -> exists r, MinAreaRectInPlace fuel (map (prj (fst (PerpendicularBasis x)) (snd (PerpendicularBasis x))) pts) = Some r).
  { intros x UX MX. destruct (LineU x UX MX) as (c & d & Z & UW). apply rect_line; [discriminate| |exact FU]. apply (flat_line _ _ x (plus (scale c u) (scale d v))); [now apply basis_frame|exact UW|exact Z|].
    intros p q P Q. rewrite dot_plus_l, !dot_scale_l, (CU p q P Q), (CV p q P Q). ring. }
  assert (Step : forall x j a b, unitv x -> dot m x = 0 -> jiggleStep fuel pts (Jig x j (Some 0) s a b) = Some (Jig s (S j) (Some 0) s a b)).
  { intros x j a b UX MX. destruct (Rect x UX MX) as (r' & E'). pose proof (basis_frame x UX) as F'. destruct (PerpendicularBasis x) as [u' v'] eqn:B'. cbn [fst snd] in *.
    destruct (jig_step fuel pts (Jig x j (Some 0) s a b) u' v' x r' N B' F' E') as (vol' & V' & _ & J'). rewrite J'. cbn [jbest jsecond jmiss joutA joutB]. rewrite (Rltb_nonneg vol' V'). reflexivity. }
  assert (MF : dot m f = 0) by apply (lift_m u v m F). assert (MS : dot m s = 0) by apply (lift_m u v m F).
  destruct k as [|[|k]]; [lia|lia|]. cbn [jiggleLoop jmiss Nat.leb]. rewrite (Step f 0%nat _ _ UF MF). cbn [jiggleLoop jmiss Nat.leb]. rewrite (Step s 1%nat _ _ US MS).
  assert (End : jiggleLoop k fuel pts (Jig s 2 (Some 0) s origin f) = Some (Some 0, origin, f)) by (destruct k; reflexivity). rewrite End.
  unfold OBB_FixedOrientationEnclosingOBB. change (Cross origin f) with (cross origin f). assert (CZ : cross origin f = origin) by (apply vec_ext; unfold cross, origin; cbn; ring). rewrite CZ.
  assert (NZ : Normalized origin = u). { unfold Normalized, Normalize. change (Length origin) with (norm origin). rewrite (proj2 (norm_zero origin) eq_refl). cbv zeta. rsimpl. rewrite (proj2 (Rltb_false _ _)) by lra. reflexivity. }
  rewrite NZ. destruct (extreme_some origin pts N) as (i0 & j0 & l0 & h0 & E0). destruct (extreme_some f pts N) as (i1 & j1 & l1 & h1 & E1). destruct (extreme_some u pts N) as (i2 & j2 & l2 & h2 & E2). rewrite E0, E1, E2.
  eexists. split; [reflexivity|]. cbn [oaxis0]. split; [reflexivity|].
  assert (FZ : vz f = 0) by (unfold f, lift, u, v, plus, scale; cbn; ring).
  split; intros (x & y & z & _ & _ & _ & EQ); apply (f_equal vz) in EQ; unfold plus, scale, smulv, vadd, origin, u in EQ; cbn [opos oaxis0 oaxis1 oaxis2 vx vy vz] in EQ; revert EQ; rsimpl; rewrite FZ; try (unfold m; cbn [vz]); intros EQ; ring_simplify in EQ; lra.
Qed.
Print Assumptions C108_collinear_refuted.
