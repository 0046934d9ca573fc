(** C51 continued: transforms, lines, triangles. *)
From Coq Require Import Reals Psatz List Bool Permutation.
From Verif Require Import Num NumR ScalarModel ScalarProofs Vec3Model GeoTypes GeoSpec GeoLemmas Vec3Props AabbModel AabbSpec AabbProofs AabbProps AabbProps2 MatModel MatSpec MatProofs MatProofs2 LineModel LineSpec LineProofs LineProofs2 LineProps
  RotModel RotSpec RotProofs PlaneModel PlaneSpec PlaneProps PlaneProps2 PlaneProps4 SphereModel SphereSpec SphereProps SphereProps2 SphereProps3 TriangleModel TriangleSpec TriangleProps TriangleProps3 TriangleProps5 TriangleProps7 SatModel SatTheory SatProps CircleModel CircleProps CapsuleModel CapsuleProps CapsuleProps3 ObbModel ObbProps ObbProps2 ObbProps4 ObbProps5 AabbProps2 TriangleSpec TriangleProps TriangleProps3 TriangleProps7 LineSpec.
Import ListNotations.
Open Scope R_scope.
Ltac Zify.zify_post_hook ::= idtac.

(** ** Lines, rays, segments *)
Lemma muldir_diff (m : mat34 R) (p d : pt) : muldir34 m d = minus (mulpos34 m (plus p d)) (mulpos34 m p).
Proof. unfold muldir34, mulpos34, mulv. vunf. gunf. rsimpl. apply vec_ext; cbn [vx vy vz]; ring. Qed.
Lemma local_dir_R (o : obb R) (d : pt) : framed o -> muldir34 (OBB_WorldToLocal o) d = V3 (dot d (oaxis0 o)) (dot d (oaxis1 o)) (dot d (oaxis2 o)).
Proof. intros F. rewrite (muldir_diff _ origin), !local_R by exact F. unfold crd0, crd1, crd2. gunf. apply vec_ext; cbn [vx vy vz]; ring. Qed.
Lemma local_along (o : obb R) p d t : framed o -> mulpos34 (OBB_WorldToLocal o) (along p d t) = along (mulpos34 (OBB_WorldToLocal o) p) (muldir34 (OBB_WorldToLocal o) d) t.
Proof. intros F. rewrite !local_R, local_dir_R by exact F. unfold crd0, crd1, crd2, along. gunf. apply vec_ext; cbn [vx vy vz]; ring. Qed.
Lemma local_norm (o : obb R) (d : pt) : framed o -> dot (muldir34 (OBB_WorldToLocal o) d) (muldir34 (OBB_WorldToLocal o) d) = dot d d.
Proof. intros F. rewrite !local_dir_R by exact F. destruct F as (U0 & U1 & U2 & O1 & O2 & O3). pose proof (parseval _ _ _ d d U0 U1 U2 O1 O2 O3) as P. rewrite <- P, !(dot_comm d). unfold dot at 1. cbn [vx vy vz]. ring. Qed.
Lemma local_box_ok o : obb_ok o -> box_ok (OBB_LocalBox o).
Proof. intros (X & Y & Z). unfold box_ok, OBB_LocalBox, OBB_Size. vunf. cbn. lra. Qed.
Lemma in_local o p d t : framed o -> (in_box (OBB_LocalBox o) (along (mulpos34 (OBB_WorldToLocal o) p) (muldir34 (OBB_WorldToLocal o) d) t) <-> in_obb o (along p d t)).
Proof. intros F. rewrite <- local_along by exact F. symmetry. now apply C51_local. Qed.
(** The direction is, for each axis, perpendicular to it or not nearly so. *)
Definition steady (o : obb R) (d : pt) : Prop := (dot d (oaxis0 o) = 0 \/ 1 / 10000 <= Rabs (dot d (oaxis0 o))) /\ (dot d (oaxis1 o) = 0 \/ 1 / 10000 <= Rabs (dot d (oaxis1 o))) /\ (dot d (oaxis2 o) = 0 \/ 1 / 10000 <= Rabs (dot d (oaxis2 o))).
Lemma steady_local o d : framed o -> steady o d -> not_near_parallel (muldir34 (OBB_WorldToLocal o) d).
Proof. intros F. rewrite local_dir_R by exact F. exact (fun H => H). Qed.
Theorem C51_ray_and_line (o : obb R) (r : ray R) (l : line R) : framed o -> obb_ok o -> unitv (rdir r) -> steady o (rdir r) -> steady o (ldir l) ->
  (let '(hit, tn, tf) := OBB_IntersectsRay o r in (hit = true <-> exists p, on_ray r p /\ in_obb o p) /\ (hit = true -> forall t, in_range tn tf t <-> 0 <= t /\ in_obb o (along (rpos r) (rdir r) t))) /\
  (let '(hit, tn, tf) := OBB_IntersectsLine o l in (hit = true <-> exists p, on_line l p /\ in_obb o p) /\ (hit = true -> forall t, in_range tn tf t <-> in_obb o (along (lpos l) (ldir l) t))).
Proof.
  intros F K U Sr Sl. unfold OBB_IntersectsRay, OBB_IntersectsLine. cbv zeta. set (W := OBB_WorldToLocal o).
  assert (NU : Normalized (muldir34 W (rdir r)) = muldir34 W (rdir r)) by (apply Normalized_unit; unfold unitv, W; rewrite local_norm by exact F; exact U). rewrite NU.
  pose proof (C23_ray_and_line (OBB_LocalBox o) (Ry (mulpos34 W (rpos r)) (muldir34 W (rdir r))) (Ln (mulpos34 W (lpos l)) (muldir34 W (ldir l))) (local_box_ok o K) (steady_local o _ F Sr) (steady_local o _ F Sl)) as (R1 & L1 & R2 & L2).
  cbn [rpos rdir lpos ldir] in R1, L1, R2, L2.
  destruct (AABB_IntersectsRay (OBB_LocalBox o) _) as [[hr rn] rf]. destruct (AABB_IntersectsLine (OBB_LocalBox o) _) as [[hl ln] lf]. cbn [fst snd] in *. split; split.
  - rewrite R1. split; [intros (t & T & I); exists (along (rpos r) (rdir r) t); split; [now exists t|now apply in_local]|intros (p & (t & T & ->) & I); exists t; split; [exact T|now apply in_local]].
  - intros H t. rewrite (R2 H t). unfold W. rewrite in_local by exact F. reflexivity.
  - rewrite L1. split; [intros (t & I); exists (along (lpos l) (ldir l) t); split; [now exists t|now apply in_local]|intros (p & (t & ->) & I); exists t; now apply in_local].
  - intros H t. rewrite (L2 H t). unfold W. rewrite in_local by exact F. reflexivity.
Qed.
Print Assumptions C51_ray_and_line.
Theorem C51_segment (o : obb R) (s : segment R) : framed o -> obb_ok o -> steady o (scale (/ norm (minus (seg_b s) (seg_a s))) (minus (seg_b s) (seg_a s))) -> seg_a s = seg_b s \/ 1 / 10000 < dist (seg_b s) (seg_a s) ->
  let '(hit, dn, df) := OBB_IntersectsSeg o s in (hit = true <-> exists p, on_segment s p /\ in_obb o p) /\ (hit = true -> forall t, in_range dn df t <-> 0 <= t <= 1 /\ in_obb o (along (seg_a s) (minus (seg_b s) (seg_a s)) t)).
Proof.
  intros F K S Dg. unfold OBB_IntersectsSeg. cbv zeta. set (W := OBB_WorldToLocal o). set (d := minus (seg_b s) (seg_a s)) in *.
  assert (M : minus (mulpos34 W (seg_b s)) (mulpos34 W (seg_a s)) = muldir34 W d) by (unfold W; rewrite !local_R, local_dir_R by exact F; unfold crd0, crd1, crd2, d; gunf; apply vec_ext; cbn [vx vy vz]; ring).
  assert (N : norm (muldir34 W d) = norm d) by (unfold norm; f_equal; now apply local_norm).
  assert (SD : scale (/ norm d) (muldir34 W d) = muldir34 W (scale (/ norm d) d)) by (unfold W; rewrite !local_dir_R by exact F; gunf; apply vec_ext; cbn [vx vy vz]; ring).
  pose proof (C23_segment (OBB_LocalBox o) (Seg (mulpos34 W (seg_a s)) (mulpos34 W (seg_b s))) (local_box_ok o K)) as H. cbn [seg_a seg_b] in H. rewrite M, N, SD in H. specialize (H (steady_local o _ F S)).
  assert (D' : mulpos34 W (seg_a s) = mulpos34 W (seg_b s) \/ 1 / 10000 < dist (mulpos34 W (seg_b s)) (mulpos34 W (seg_a s))) by (destruct Dg as [E|L]; [left; now rewrite E|right; unfold dist; rewrite M, N; exact L]). specialize (H D').
  destruct (AABB_IntersectsSegment _ _) as [[hit dn] df]. destruct H as [H1 H2]. 
  assert (ON : (exists p, on_segment (Seg (mulpos34 W (seg_a s)) (mulpos34 W (seg_b s))) p /\ in_box (OBB_LocalBox o) p) <-> exists p, on_segment s p /\ in_obb o p).
  { unfold on_segment. cbn [seg_a seg_b]. rewrite M. split.
    - intros (p & (t & T & ->) & I). exists (along (seg_a s) d t). split; [exists t; split; [exact T|reflexivity]|]. now apply in_local.
    - intros (p & (t & T & ->) & I). exists (along (mulpos34 W (seg_a s)) (muldir34 W d) t). split; [exists t; split; [exact T|reflexivity]|]. now apply in_local. }
  split; [now rewrite H1|]. intros H t. rewrite (H2 H t). unfold W. rewrite in_local by exact F. reflexivity.
Qed.
Print Assumptions C51_segment.
(** ** Triangles *)
Definition in_open_obb (o : obb R) (p : pt) : Prop := Rabs (crd0 o p) < vx (orad o) /\ Rabs (crd1 o p) < vy (orad o) /\ Rabs (crd2 o p) < vz (orad o).
Theorem C51_triangle (o : obb R) (t : triangle R) : framed o -> thick o -> proper_tri t ->
  (OBB_IntersectsTri o t = true -> exists p, in_obb o p /\ in_triangle t p) /\ ((exists p, in_open_obb o p /\ in_triangle t p) -> OBB_IntersectsTri o t = true).
Proof.
  intros F K P. unfold OBB_IntersectsTri. set (W := OBB_WorldToLocal o). set (t' := Tri_Transform34 t W).
  assert (S : solid (OBB_LocalBox o)) by (destruct K as (X & Y & Z); unfold solid, OBB_LocalBox, OBB_Size; vunf; cbn; lra).
  destruct (C51_local o F) as (INV & ISO & INB). destruct (C80_transforms t W (lin34 W) (Q4 0 0 0 1) origin) as (_ & _ & IM & _). fold t' in IM.
  assert (P' : proper_tri t').
  { intros u v E. apply P. unfold t', Tri_Transform34 in E. cbn [tri_a tri_b tri_c] in E.
    assert (M : forall x y, minus (mulpos34 W y) (mulpos34 W x) = muldir34 W (minus y x)) by (intros; rewrite (muldir_diff W x); do 2 f_equal; gunf; apply vec_ext; cbn [vx vy vz]; ring).
    rewrite !M in E. assert (L : muldir34 W (plus (scale u (minus (tri_b t) (tri_a t))) (scale v (minus (tri_c t) (tri_a t)))) = origin) by (rewrite <- E; unfold W; rewrite !local_dir_R by exact F; gunf; apply vec_ext; cbn [vx vy vz]; ring).
    apply dot_zero. rewrite <- (local_norm o) by exact F. fold W. rewrite L. unfold dot, origin. cbn [vx vy vz]. ring. }
  destruct (C49_box t' (OBB_LocalBox o) S P') as [A B]. split.
  - intros H. destruct (A H) as (p & I & T). apply IM in T. destruct T as (x & X & ->). exists x. split; [apply INB; exact I|exact X].
  - intros (p & I & T). apply B. exists (apply34 W p). split; [|apply IM; now exists p]. rewrite <- mulpos34_apply. unfold W. rewrite local_R by exact F. destruct I as (I0 & I1 & I2). apply Rabs_def2 in I0, I1, I2. unfold in_open_box, OBB_LocalBox, OBB_Size. vunf. cbn. lra.
Qed.
Print Assumptions C51_triangle.
