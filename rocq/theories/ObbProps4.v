(** C51 continued: local coordinates, growing, transforms, lines, triangles, volume. *)
From Coq Require Import Reals Psatz List Bool Permutation.
From Verif Require Import Num NumR ScalarModel ScalarProofs Vec3Model GeoTypes GeoSpec GeoLemmas Vec3Props AabbModel AabbSpec AabbProofs AabbProps AabbProps2 MatModel MatSpec MatProofs MatProofs2 LineModel LineSpec LineProofs LineProofs2 LineProps
  RotModel RotSpec RotProofs PlaneModel PlaneSpec PlaneProps PlaneProps2 PlaneProps4 SphereModel SphereSpec SphereProps SphereProps2 SphereProps3 TriangleModel TriangleSpec TriangleProps TriangleProps3 TriangleProps5 TriangleProps7 SatModel SatTheory SatProps CircleModel CircleProps CapsuleModel CapsuleProps CapsuleProps3 ObbModel ObbProps ObbProps2.
Import ListNotations.
Open Scope R_scope.
Ltac Zify.zify_post_hook ::= idtac.

(** ** Local coordinates *)
Lemma world_R (o : obb R) x y z : mulpos34 (OBB_LocalToWorld o) (V3 x y z) = at_ o (x - vx (orad o)) (y - vy (orad o)) (z - vz (orad o)).
Proof. unfold OBB_LocalToWorld, mulpos34, mulv, at_. cbv zeta. cbn [lin34 trans34 row0 row1 row2]. vunf. gunf. rsimpl. apply vec_ext; cbn [vx vy vz]; ring. Qed.
Lemma local_R (o : obb R) p : framed o -> mulpos34 (OBB_WorldToLocal o) p = V3 (crd0 o p + vx (orad o)) (crd1 o p + vy (orad o)) (crd2 o p + vz (orad o)).
Proof.
  intros F. rewrite <- (at_crd o p F) at 1. set (x := crd0 o p). set (y := crd1 o p). set (z := crd2 o p). clearbody x y z.
  replace (at_ o x y z) with (mulpos34 (OBB_LocalToWorld o) (V3 (x + vx (orad o)) (y + vy (orad o)) (z + vz (orad o)))) by (rewrite world_R; f_equal; ring). rewrite !mulpos34_apply. unfold OBB_WorldToLocal. apply InverseOrthonormal34_correct.
  destruct F as (U0 & U1 & U2 & O1 & O2 & O3). unfold unitv, orth in *.
  assert (A : forall v, apply (lin34 (OBB_LocalToWorld o)) v = plus (scale (vx v) (oaxis0 o)) (plus (scale (vy v) (oaxis1 o)) (scale (vz v) (oaxis2 o)))) by (intros v; unfold OBB_LocalToWorld, apply; cbv zeta; cbn [lin34 row0 row1 row2]; gunf; apply vec_ext; cbn [vx vy vz]; ring).
  intros u v. rewrite !A. rewrite !dot_plus_l, !dot_plus_r, !dot_scale_l, !dot_scale_r, U0, U1, U2, (dot_comm (oaxis1 o) (oaxis0 o)), (dot_comm (oaxis2 o) (oaxis0 o)), (dot_comm (oaxis2 o) (oaxis1 o)), O1, O2, O3. unfold dot. ring.
Qed.
Theorem C51_local (o : obb R) : framed o -> inverses34 (OBB_LocalToWorld o) (OBB_WorldToLocal o) /\ (forall u v, dist (apply34 (OBB_LocalToWorld o) u) (apply34 (OBB_LocalToWorld o) v) = dist u v) /\
  forall p, in_obb o p <-> in_box (OBB_LocalBox o) (mulpos34 (OBB_WorldToLocal o) p).
Proof.
  intros F. assert (I : inverses34 (OBB_LocalToWorld o) (OBB_WorldToLocal o)).
  { intros v. rewrite <- !mulpos34_apply. rewrite !local_R by exact F. rewrite world_R. destruct v as [x y z]. rewrite world_R. destruct (crd_at o (x - vx (orad o)) (y - vy (orad o)) (z - vz (orad o)) F) as (-> & -> & ->). split; [|f_equal; ring].
    transitivity (at_ o (crd0 o (V3 x y z)) (crd1 o (V3 x y z)) (crd2 o (V3 x y z))); [f_equal; ring|now apply at_crd]. }
  split; [exact I|]. split.
  - intros [a b c] [x y z]. rewrite <- !mulpos34_apply, !world_R. apply Rsqr_inj; try apply dist_pos. unfold Rsqr. rewrite dist_at by exact F. unfold dist. rewrite norm_sq. gunf. ring.
  - intros p. rewrite (in_obb_crd o p F), local_R by exact F. unfold in_box, OBB_LocalBox, OBB_Size, within_r. vunf. cbn. lra.
Qed.
Print Assumptions C51_local.
(** ** Growing *)
Lemma enclose_axis_R (a p pos : pt) r : 0 <= r -> exists s r', OBB_encloseAxis a p pos r = (plus pos (scale s a), r') /\ s - r' = Rmin (- r) (dot (minus p pos) a) /\ s + r' = Rmax r (dot (minus p pos) a).
Proof.
  intros Hr. unfold OBB_encloseAxis. cbv zeta. rewrite Abs_R. change (@Dot R Num_R) with dot. change (@vsub R Num_R) with minus. change (@vadd R Num_R) with plus. rewrite !vmuls_R. rsimpl. set (c := dot (minus p pos) a).
  destruct (Rltb_spec 0 (Rabs c - r)) as [H|H].
  - destruct (Rltb_spec 0 c) as [C|C].
    + rewrite Rabs_pos_eq in * by lra. exists ((c - r) / 2), (r + (c - r) * (1 / 2)). split; [f_equal; gunf; apply vec_ext; cbn [vx vy vz]; field|]. rewrite Rmin_left, Rmax_right by lra. lra.
    + rewrite Rabs_left1 in * by lra. exists (- ((- c - r) / 2)), (r + (- c - r) * (1 / 2)). split; [f_equal; gunf; apply vec_ext; cbn [vx vy vz]; field|]. rewrite Rmin_right, Rmax_left by lra. lra.
  - exists 0, r. split; [f_equal; gunf; apply vec_ext; cbn [vx vy vz]; ring|]. assert (H' : Rabs c <= r) by lra. apply Rabs_le_inv2 in H'. rewrite Rmin_left, Rmax_left by lra. lra.
Qed.
Theorem C51_enclose (o : obb R) (p : pt) : framed o -> obb_ok o -> let o' := OBB_Enclose o p in
  framed o' /\ obb_ok o' /\ (forall w, in_obb o w -> in_obb o' w) /\ in_obb o' p /\
  forall q, oaxis0 q = oaxis0 o -> oaxis1 q = oaxis1 o -> oaxis2 q = oaxis2 o -> (forall w, in_obb o w -> in_obb q w) -> in_obb q p -> forall w, in_obb o' w -> in_obb q w.
Proof.
  intros F K o'. pose proof K as (X & Y & Z). pose proof (frame_of o F) as (U0 & U1 & U2 & O1 & Q1 & O2 & Q2 & O3 & Q3).
  assert (E : exists s0 r0 s1 r1 s2 r2, o' = Obb (at_ o s0 s1 s2) (V3 r0 r1 r2) (oaxis0 o) (oaxis1 o) (oaxis2 o) /\ s0 - r0 = Rmin (- vx (orad o)) (crd0 o p) /\ s0 + r0 = Rmax (vx (orad o)) (crd0 o p) /\
     s1 - r1 = Rmin (- vy (orad o)) (crd1 o p) /\ s1 + r1 = Rmax (vy (orad o)) (crd1 o p) /\ s2 - r2 = Rmin (- vz (orad o)) (crd2 o p) /\ s2 + r2 = Rmax (vz (orad o)) (crd2 o p)).
  { unfold o', OBB_Enclose.
    destruct (enclose_axis_R (oaxis0 o) p (opos o) (vx (orad o)) X) as (s0 & r0 & -> & A0 & B0).
    destruct (enclose_axis_R (oaxis1 o) p (plus (opos o) (scale s0 (oaxis0 o))) (vy (orad o)) Y) as (s1 & r1 & -> & A1 & B1).
    destruct (enclose_axis_R (oaxis2 o) p (plus (plus (opos o) (scale s0 (oaxis0 o))) (scale s1 (oaxis1 o))) (vz (orad o)) Z) as (s2 & r2 & -> & A2 & B2).
    assert (C1 : dot (minus p (plus (opos o) (scale s0 (oaxis0 o)))) (oaxis1 o) = crd1 o p) by (unfold crd1; transitivity (dot (minus p (opos o)) (oaxis1 o) - s0 * dot (oaxis0 o) (oaxis1 o)); [gunf; ring|rewrite O1; ring]).
    assert (C2 : dot (minus p (plus (plus (opos o) (scale s0 (oaxis0 o))) (scale s1 (oaxis1 o)))) (oaxis2 o) = crd2 o p) by (unfold crd2; transitivity (dot (minus p (opos o)) (oaxis2 o) - s0 * dot (oaxis0 o) (oaxis2 o) - s1 * dot (oaxis1 o) (oaxis2 o)); [gunf; ring|rewrite O2, O3; ring]).
    rewrite C1 in A1, B1. rewrite C2 in A2, B2. exists s0, r0, s1, r1, s2, r2. split; [f_equal; unfold at_; gunf; apply vec_ext; cbn [vx vy vz]; ring|]. tauto. }
  destruct E as (s0 & r0 & s1 & r1 & s2 & r2 & E' & A0 & B0 & A1 & B1 & A2 & B2). clearbody o'. subst o'. set (o' := Obb _ _ _ _ _).
  assert (F' : framed o') by exact F.
  assert (CR : forall w, crd0 o' w = crd0 o w - s0 /\ crd1 o' w = crd1 o w - s1 /\ crd2 o' w = crd2 o w - s2).
  { intros w. destruct (crd_at o s0 s1 s2 F) as (D0 & D1 & D2). assert (DM : forall a, dot (minus w (at_ o s0 s1 s2)) a = dot (minus w (opos o)) a - dot (minus (at_ o s0 s1 s2) (opos o)) a) by (intros a; set (q := at_ o s0 s1 s2); gunf; ring).
    unfold crd0, crd1, crd2 in *. unfold o'. cbn [opos oaxis0 oaxis1 oaxis2]. rewrite !DM, D0, D1, D2. tauto. }
  pose proof (Rmin_l (- vx (orad o)) (crd0 o p)). pose proof (Rmin_r (- vx (orad o)) (crd0 o p)). pose proof (Rmin_l (- vy (orad o)) (crd1 o p)). pose proof (Rmin_r (- vy (orad o)) (crd1 o p)). pose proof (Rmin_l (- vz (orad o)) (crd2 o p)). pose proof (Rmin_r (- vz (orad o)) (crd2 o p)).
  pose proof (Rmax_l (vx (orad o)) (crd0 o p)). pose proof (Rmax_r (vx (orad o)) (crd0 o p)). pose proof (Rmax_l (vy (orad o)) (crd1 o p)). pose proof (Rmax_r (vy (orad o)) (crd1 o p)). pose proof (Rmax_l (vz (orad o)) (crd2 o p)). pose proof (Rmax_r (vz (orad o)) (crd2 o p)).
  split; [exact F'|]. split; [unfold obb_ok, o'; cbn [orad vx vy vz]; lra|].
  assert (IN : forall w, in_obb o' w <-> s0 - r0 <= crd0 o w <= s0 + r0 /\ s1 - r1 <= crd1 o w <= s1 + r1 /\ s2 - r2 <= crd2 o w <= s2 + r2).
  { intros w. rewrite (in_obb_crd o' w F'). destruct (CR w) as (-> & -> & ->). unfold within_r, o'. cbn [orad vx vy vz]. lra. }
  split; [|split].
  - intros w W. apply (in_obb_crd o w F) in W. unfold within_r in W. apply IN. lra.
  - apply IN. lra.
  - intros q E0 E1 E2 QO QP w W. apply IN in W. assert (FQ : framed q) by (unfold framed; rewrite E0, E1, E2; exact F).
    assert (CQ : forall v, crd0 q v = crd0 o v + crd0 q (opos o) /\ crd1 q v = crd1 o v + crd1 q (opos o) /\ crd2 q v = crd2 o v + crd2 q (opos o)) by (intros v; unfold crd0, crd1, crd2; rewrite E0, E1, E2; repeat split; gunf; ring).
    set (t0 := crd0 q (opos o)) in *. set (t1 := crd1 q (opos o)) in *. set (t2 := crd2 q (opos o)) in *.
    assert (QI : forall v, in_obb q v <-> within_r (vx (orad q)) (crd0 o v + t0) /\ within_r (vy (orad q)) (crd1 o v + t1) /\ within_r (vz (orad q)) (crd2 o v + t2)) by (intros v; rewrite (in_obb_crd q v FQ); destruct (CQ v) as (-> & -> & ->); reflexivity).
    pose proof (QO (at_ o (vx (orad o)) (vy (orad o)) (vz (orad o))) ltac:(apply in_obb_at; lra)) as G1. pose proof (QO (at_ o (- vx (orad o)) (- vy (orad o)) (- vz (orad o))) ltac:(apply in_obb_at; lra)) as G2.
    apply QI in G1, G2, QP. destruct (crd_at o (vx (orad o)) (vy (orad o)) (vz (orad o)) F) as (D0 & D1 & D2). destruct (crd_at o (- vx (orad o)) (- vy (orad o)) (- vz (orad o)) F) as (D3 & D4 & D5). rewrite D0, D1, D2 in G1. rewrite D3, D4, D5 in G2. unfold within_r in *.
    apply QI. unfold within_r. rewrite A0, B0, A1, B1, A2, B2 in W. clear - W G1 G2 QP.
    revert W. unfold Rmin, Rmax. repeat destruct Rle_dec; lra.
Qed.
Print Assumptions C51_enclose.
(** ** Volume and area *)
Theorem C51_volume (o : obb R) : framed o -> obb_ok o ->
  OBB_Volume o = Rabs (volume (scale (2 * vx (orad o)) (oaxis0 o)) (scale (2 * vy (orad o)) (oaxis1 o)) (scale (2 * vz (orad o)) (oaxis2 o))) /\
  OBB_SurfaceArea o = 2 * (norm (cross (scale (2 * vx (orad o)) (oaxis0 o)) (scale (2 * vy (orad o)) (oaxis1 o))) + norm (cross (scale (2 * vx (orad o)) (oaxis0 o)) (scale (2 * vz (orad o)) (oaxis2 o))) +
                           norm (cross (scale (2 * vy (orad o)) (oaxis1 o)) (scale (2 * vz (orad o)) (oaxis2 o)))) /\
  (OBB_IsDegenerate o = false <-> 0 < OBB_Volume o).
Proof.
  intros F (X & Y & Z). pose proof (frame_of o F) as (U0 & U1 & U2 & O1 & Q1 & O2 & Q2 & O3 & Q3).
  assert (V : OBB_Volume o = 8 * (vx (orad o) * vy (orad o) * vz (orad o))) by (unfold OBB_Volume, OBB_Size; vunf; rsimpl; unfold n2; rsimpl; ring).
  split; [|split].
  - rewrite V. replace (volume (scale (2 * vx (orad o)) (oaxis0 o)) (scale (2 * vy (orad o)) (oaxis1 o)) (scale (2 * vz (orad o)) (oaxis2 o))) with (8 * (vx (orad o) * vy (orad o) * vz (orad o)) * dot (oaxis2 o) (cross (oaxis0 o) (oaxis1 o))) by (unfold volume, cross; gunf; ring).
    rewrite Rabs_mult, Rabs_pos_eq by (repeat apply Rmult_le_pos; lra). pose proof (vol_one _ _ _ U0 U1 U2 O1 O2 O3) as W. assert (Rabs (dot (oaxis2 o) (cross (oaxis0 o) (oaxis1 o))) = 1) as ->; [|ring]. rewrite <- (Rabs_R1). apply Rsqr_eq_abs_0. unfold Rsqr. lra.
  - assert (NC : forall (a b : pt) r s, unitv a -> unitv b -> orth a b -> 0 <= r -> 0 <= s -> norm (cross (scale (2 * r) a) (scale (2 * s) b)) = 4 * r * s).
    { intros a b r s Ua Ub Oab Hr Hs. apply norm_is; [apply Rmult_le_pos; lra|]. unfold unitv, orth in *. transitivity (16 * (r * r) * (s * s) * (dot a a * dot b b - dot a b * dot a b)); [unfold cross; gunf; ring|rewrite Ua, Ub, Oab; ring]. }
    rewrite !NC by assumption. unfold OBB_SurfaceArea, OBB_Size. vunf. rsimpl. unfold n2. rsimpl. ring.
  - rewrite V. unfold OBB_IsDegenerate. rewrite negb_false_iff, !andb_true_iff. rsimpl. unfold n0. rsimpl. rewrite !Rltb_true. split.
    + intros [[A B] C]. apply Rmult_lt_0_compat; [lra|]. repeat apply Rmult_lt_0_compat; lra.
    + intros H. destruct (Req_dec (vx (orad o)) 0) as [E|E]; [rewrite E in H; lra|]. destruct (Req_dec (vy (orad o)) 0) as [E'|E']; [rewrite E' in H; lra|]. destruct (Req_dec (vz (orad o)) 0) as [E''|E'']; [rewrite E'' in H; lra|]. lra.
Qed.
Print Assumptions C51_volume.
