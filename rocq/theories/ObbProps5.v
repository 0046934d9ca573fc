(** C51 continued: transforms, lines, triangles. *)
From Coq Require Import Reals Psatz List Bool Permutation.
From Verif Require Import Num NumR ScalarModel ScalarProofs Vec3Model GeoTypes GeoSpec GeoLemmas Vec3Props AabbModel AabbSpec AabbProofs AabbProps AabbProps2 MatModel MatSpec MatProofs MatProofs2 LineModel LineSpec LineProofs LineProofs2 LineProps
  RotModel RotSpec RotProofs PlaneModel PlaneSpec PlaneProps PlaneProps2 PlaneProps4 SphereModel SphereSpec SphereProps SphereProps2 SphereProps3 TriangleModel TriangleSpec TriangleProps TriangleProps3 TriangleProps5 TriangleProps7 SatModel SatTheory SatProps CircleModel CircleProps CapsuleModel CapsuleProps CapsuleProps3 ObbModel ObbProps ObbProps2 ObbProps4.
Import ListNotations.
Open Scope R_scope.
Ltac Zify.zify_post_hook ::= idtac.

(** ** Transforms *)
Lemma unit_param r x : 0 <= r -> (- r <= x <= r <-> exists s, -1 <= s <= 1 /\ x = s * r).
Proof.
  intros H. split.
  - intros B. destruct (Req_dec r 0) as [E|E]; [exists 0; split; [lra|]; subst r; lra|]. exists (x / r). split; [|field; exact E]. assert (0 < r) by lra. split.
    + apply (Rmult_le_reg_r r); [lra|]. unfold Rdiv. rewrite Rmult_assoc, Rinv_l by exact E. lra.
    + apply (Rmult_le_reg_r r); [lra|]. unfold Rdiv. rewrite Rmult_assoc, Rinv_l by exact E. lra.
  - intros (s & S & ->). nra.
Qed.
Lemma in_obb_unit o p : obb_ok o -> (in_obb o p <-> exists s t u, -1 <= s <= 1 /\ -1 <= t <= 1 /\ -1 <= u <= 1 /\
  p = plus (opos o) (plus (scale s (scale (vx (orad o)) (oaxis0 o))) (plus (scale t (scale (vy (orad o)) (oaxis1 o))) (scale u (scale (vz (orad o)) (oaxis2 o)))))).
Proof.
  intros (X & Y & Z). split.
  - intros (x & y & z & Hx & Hy & Hz & ->). apply unit_param in Hx, Hy, Hz; try assumption. destruct Hx as (s & S & ->), Hy as (t & T & ->), Hz as (u & U & ->). exists s, t, u. repeat split; try tauto. gunf; apply vec_ext; cbn [vx vy vz]; ring.
  - intros (s & t & u & S & T & U & ->). exists (s * vx (orad o)), (t * vy (orad o)), (u * vz (orad o)). split; [apply unit_param; [exact X|now exists s]|]. split; [apply unit_param; [exact Y|now exists t]|]. split; [apply unit_param; [exact Z|now exists u]|]. gunf; apply vec_ext; cbn [vx vy vz]; ring.
Qed.
(** A half axis the code can transform: its image is zero or longer than 1e-6. *)
Definition sizeable (v : pt) : Prop := v = origin \/ 1 / 1000000 < norm v.
Lemma normalize_spec (v : pt) : sizeable v -> let '(a, r) := Normalize v in 0 <= r /\ scale r a = v /\ unitv a /\ r = norm v.
Proof.
  intros H. rewrite Normalize_R. change eps6 with (1 / 1000000). destruct (Rltb_spec (1 / 1000000) (norm v)) as [L|L].
  - split; [lra|]. split; [gunf; apply vec_ext; cbn [vx vy vz]; field; lra|]. split; [|reflexivity]. unfold unitv. rewrite dot_scale_l, dot_scale_r, <- norm_sq. field. lra.
  - destruct H as [->|H]; [|lra]. split; [lra|]. split; [unfold origin; gunf; apply vec_ext; cbn [vx vy vz]; ring|]. split; [unfold unitv, dot; cbn; ring|]. symmetry. now apply norm_zero.
Qed.
Lemma transform_image (o : obb R) (m : mat3 R) (t : pt) : obb_ok o ->
  sizeable (apply m (scale (vx (orad o)) (oaxis0 o))) -> sizeable (apply m (scale (vy (orad o)) (oaxis1 o))) -> sizeable (apply m (scale (vz (orad o)) (oaxis2 o))) ->
  let o' := OBBTransform o (fun x => plus (apply m x) t) (apply m) in obb_ok o' /\ (forall p, in_obb o' p <-> image (fun x => plus (apply m x) t) (in_obb o) p) /\ unitv (oaxis0 o') /\ unitv (oaxis1 o') /\ unitv (oaxis2 o') /\
  scale (vx (orad o')) (oaxis0 o') = apply m (scale (vx (orad o)) (oaxis0 o)) /\ scale (vy (orad o')) (oaxis1 o') = apply m (scale (vy (orad o)) (oaxis1 o)) /\ scale (vz (orad o')) (oaxis2 o') = apply m (scale (vz (orad o)) (oaxis2 o)) /\
  vx (orad o') = norm (apply m (scale (vx (orad o)) (oaxis0 o))) /\ vy (orad o') = norm (apply m (scale (vy (orad o)) (oaxis1 o))) /\ vz (orad o') = norm (apply m (scale (vz (orad o)) (oaxis2 o))).
Proof.
  intros K S0 S1 S2. unfold OBBTransform. assert (SM : forall r (v : pt), smulv r v = scale r v) by (intros; vunf; gunf; apply vec_ext; cbn [vx vy vz]; rsimpl; ring). rewrite (SM (vx (orad o)) (oaxis0 o)), (SM (vy (orad o)) (oaxis1 o)), (SM (vz (orad o)) (oaxis2 o)).
  pose proof (normalize_spec _ S0) as N0. pose proof (normalize_spec _ S1) as N1. pose proof (normalize_spec _ S2) as N2.
  destruct (Normalize (apply m (scale (vx (orad o)) (oaxis0 o)))) as [a0 r0], (Normalize (apply m (scale (vy (orad o)) (oaxis1 o)))) as [a1 r1], (Normalize (apply m (scale (vz (orad o)) (oaxis2 o)))) as [a2 r2].
  destruct N0 as (P0 & E0 & V0 & L0), N1 as (P1 & E1 & V1 & L1), N2 as (P2 & E2 & V2 & L2). cbv zeta. cbn [orad opos oaxis0 oaxis1 oaxis2 vx vy vz].
  assert (K' : obb_ok (Obb (plus (apply m (opos o)) t) (V3 r0 r1 r2) a0 a1 a2)) by (unfold obb_ok; cbn [orad vx vy vz]; tauto).
  split; [exact K'|]. split; [|repeat split; assumption]. intros p. rewrite (in_obb_unit _ p K'). cbn [orad opos oaxis0 oaxis1 oaxis2 vx vy vz]. unfold image.

  assert (AL : forall (c u v w : pt) s x y, plus (plus (apply m c) t) (plus (scale s (apply m u)) (plus (scale x (apply m v)) (scale y (apply m w)))) = plus (apply m (plus c (plus (scale s u) (plus (scale x v) (scale y w))))) t).
  { intros. unfold apply. gunf. apply vec_ext; cbn [vx vy vz]; ring. }
  rewrite E0, E1, E2. split.
  - intros (s & x & y & S & X & Y & ->). rewrite AL. eexists. split; [|reflexivity]. apply in_obb_unit; [exact K|]. exists s, x, y. tauto.
  - intros (q & Q & ->). apply (in_obb_unit _ q K) in Q. destruct Q as (s & x & y & S & X & Y & ->). exists s, x, y. rewrite AL. tauto.
Qed.
Theorem C51_transforms (o : obb R) (m : mat34 R) (a : mat3 R) (q : quat R) (v : pt) : obb_ok o ->
  let able (b : mat3 R) := sizeable (apply b (scale (vx (orad o)) (oaxis0 o))) /\ sizeable (apply b (scale (vy (orad o)) (oaxis1 o))) /\ sizeable (apply b (scale (vz (orad o)) (oaxis2 o))) in
  (forall p, in_obb (OBB_Translate o v) p <-> image (fun x => plus x v) (in_obb o) p) /\
  (able a -> forall p, in_obb (OBB_Transform3 o a) p <-> image (apply a) (in_obb o) p) /\
  (able (lin34 m) -> forall p, in_obb (OBB_Transform34 o m) p <-> image (apply34 m) (in_obb o) p) /\
  (able (FromQuat q) -> forall p, in_obb (OBB_TransformQuat o q) p <-> image (apply (FromQuat q)) (in_obb o) p).
Proof.
  intros K able. assert (T3 : forall b, able b -> forall p, in_obb (OBB_Transform3 o b) p <-> image (apply b) (in_obb o) p).
  { intros b (A & B & C) p. destruct (transform_image o b origin K A B C) as (_ & I & _). assert (Z : forall x, plus (apply b x) origin = apply b x) by (intros; unfold origin; gunf; apply vec_ext; cbn [vx vy vz]; ring).
    specialize (I p). assert (E : OBBTransform o (fun x => plus (apply b x) origin) (apply b) = OBB_Transform3 o b) by (unfold OBB_Transform3, OBBTransform; now rewrite Z). rewrite E in I. rewrite I. unfold image. split; intros (w & W & ->); exists w; (split; [exact W|]); [apply Z|now rewrite Z]. }
  split; [|split; [|split]].
  - intros p. unfold image, in_obb, OBB_Translate. cbn [opos orad oaxis0 oaxis1 oaxis2]. change (@vadd R Num_R) with plus. split.
    + intros (x & y & z & X & Y & Z & ->). eexists. split; [exists x, y, z; repeat split; [apply X|apply X|apply Y|apply Y|apply Z|apply Z]|]. gunf; apply vec_ext; cbn [vx vy vz]; ring.
    + intros (w & (x & y & z & X & Y & Z & ->) & ->). exists x, y, z. split; [exact X|]. split; [exact Y|]. split; [exact Z|]. gunf; apply vec_ext; cbn [vx vy vz]; ring.
  - apply T3.
  - intros (A & B & C) p. destruct (transform_image o (lin34 m) (trans34 m) K A B C) as (_ & I & _). apply I.
  - intros H. unfold OBB_TransformQuat. now apply T3.
Qed.
Print Assumptions C51_transforms.
(** The axes stay orthonormal under similarities. *)
Theorem C51_transform_frame (o : obb R) (m : mat34 R) k : framed o -> thick o -> 0 < k -> scales_by (apply (lin34 m)) k ->
  1 / 1000000 < k * vx (orad o) -> 1 / 1000000 < k * vy (orad o) -> 1 / 1000000 < k * vz (orad o) ->
  let o' := OBB_Transform34 o m in framed o' /\ thick o' /\ orad o' = scale k (orad o) /\ forall p, OBB_Contains o' (apply34 m p) = OBB_Contains o p.
Proof.
  intros F K Hk S Lx Ly Lz o'. pose proof K as (X & Y & Z). pose proof (frame_of o F) as (U0 & U1 & U2 & O1 & Q1 & O2 & Q2 & O3 & Q3). pose proof (scales_dot (lin34 m) k S) as D.
  assert (N : forall a r, unitv a -> 0 < r -> norm (apply (lin34 m) (scale r a)) = k * r) by (intros a r U R0; rewrite (S (scale r a)), norm_scale, (unit_norm1 a U), Rabs_pos_eq by lra; ring).
  assert (SZ : forall a r, unitv a -> 0 < r -> 1 / 1000000 < k * r -> sizeable (apply (lin34 m) (scale r a))) by (intros a r U R0 L; right; rewrite N by assumption; exact L).
  destruct (transform_image o (lin34 m) (trans34 m) (thick_ok o K) (SZ _ _ U0 X Lx) (SZ _ _ U1 Y Ly) (SZ _ _ U2 Z Lz)) as (K' & I & V0 & V1 & V2 & E0 & E1 & E2 & R0 & R1 & R2).
  change (OBBTransform o (fun x => plus (apply (lin34 m) x) (trans34 m)) (apply (lin34 m))) with o' in *. rewrite N in R0, R1, R2 by assumption.
  assert (G : forall (a b a' b' : pt) r s r' s', orth a b -> scale r' a' = apply (lin34 m) (scale r a) -> scale s' b' = apply (lin34 m) (scale s b) -> r' <> 0 -> s' <> 0 -> orth a' b').
  { intros a b a' b' r s r' s' O Ea Eb Nr Ns. unfold orth in *. assert (H : r' * (s' * dot a' b') = 0). { transitivity (dot (scale r' a') (scale s' b')); [rewrite dot_scale_l, dot_scale_r; ring|]. rewrite Ea, Eb, D, dot_scale_l, dot_scale_r, O. ring. }
    apply Rmult_integral in H. destruct H as [H|H]; [easy|]. apply Rmult_integral in H. destruct H as [H|H]; [easy|exact H]. }
  assert (F' : framed o').
  { repeat split; try assumption; [apply (G _ _ _ _ _ _ _ _ O1 E0 E1)|apply (G _ _ _ _ _ _ _ _ O2 E0 E2)|apply (G _ _ _ _ _ _ _ _ O3 E1 E2)]; nra. }
  split; [exact F'|]. split; [unfold thick; rewrite R0, R1, R2; repeat split; nra|]. split; [unfold scale; rewrite <- R0, <- R1, <- R2; now destruct (orad o')|].
  intros p. apply eq_true_iff_eq. rewrite (C51_contains o' _ F'), (C51_contains o p F), I. unfold image. split.
  - intros (x & IX & E). replace p with x; [exact IX|]. assert (H : apply (lin34 m) (minus x p) = origin) by (rewrite apply_minus; unfold apply34 in E; set (u := apply (lin34 m) p) in *; set (w := apply (lin34 m) x) in *; clearbody u w; apply vec_ext; [apply (f_equal vx) in E|apply (f_equal vy) in E|apply (f_equal vz) in E]; revert E; unfold origin; gunf; lra).
    apply dist_zero. unfold dist. assert (norm (apply (lin34 m) (minus x p)) = 0) by (rewrite H; now apply norm_zero). rewrite (S (minus x p)) in H0. nra.
  - intros H. exists p. split; [exact H|reflexivity].
Qed.
Print Assumptions C51_transform_frame.
(** A flat box: its axes are no longer orthogonal, and the transformed box contains points it should not... *)
Theorem C51_transform_flat_refuted : exists (o : obb R) (m : mat34 R) (p : pt), framed o /\ obb_ok o /\ scales_by (apply (lin34 m)) 1 /\ OBB_Contains o p = false /\ OBB_Contains (OBB_Transform34 o m) (apply34 m p) = true /\ ~ framed (OBB_Transform34 o m).
Proof.
  set (o := Obb (V3 0 0 0) (V3 1 1 0) (V3 1 0 0) (V3 0 1 0) (V3 0 0 1) : obb R). set (m := M34 (M3 (V3 1 0 0) (V3 0 1 0) (V3 0 0 1)) (V3 0 0 0) : mat34 R). exists o, m, (V3 0 0 5).
  assert (F : framed o) by apply std_framed. split; [exact F|]. split; [unfold obb_ok; cbn; lra|].
  assert (A : forall v, apply (lin34 m) v = v) by (intros [x y z]; unfold apply, dot; cbn; apply vec_ext; cbn; ring).
  split; [intros v; rewrite A; ring|]. split.
  { apply not_true_iff_false. rewrite (C51_contains o _ F), (in_obb_crd o _ F). unfold within_r, crd0, crd1, crd2, dot, minus. cbn. lra. }
  assert (NZ : forall v : pt, norm v = 1 -> Normalize v = (v, 1)) by (intros v N; rewrite Normalize_R, N; change eps6 with (1 / 1000000); rewrite (proj2 (Rltb_true _ _)) by lra; f_equal; gunf; apply vec_ext; cbn [vx vy vz]; field).
  assert (E : OBB_Transform34 o m = Obb (V3 0 0 0) (V3 1 1 0) (V3 1 0 0) (V3 0 1 0) (V3 1 0 0)).
  { unfold OBB_Transform34, OBBTransform. change (muldir34 m) with (apply (lin34 m)). rewrite !A. cbn [o orad oaxis0 oaxis1 oaxis2 opos vx vy vz].
    replace (smulv 1 (V3 1 0 0) : pt) with (V3 1 0 0 : pt) by (vunf; rsimpl; apply vec_ext; cbn; ring). replace (smulv 1 (V3 0 1 0) : pt) with (V3 0 1 0 : pt) by (vunf; rsimpl; apply vec_ext; cbn; ring). replace (smulv 0 (V3 0 0 1) : pt) with (V3 0 0 0 : pt) by (vunf; rsimpl; apply vec_ext; cbn; ring).
    rewrite (NZ (V3 1 0 0)) by (apply norm_is; [lra|unfold dot; cbn; ring]). rewrite (NZ (V3 0 1 0)) by (apply norm_is; [lra|unfold dot; cbn; ring]). rewrite Normalize_R. assert (Z : norm (V3 0 0 0) = 0) by (apply norm_is; [lra|unfold dot; cbn; ring]). rewrite Z. change eps6 with (1 / 1000000). rewrite (proj2 (Rltb_false _ _)) by lra.
    f_equal. unfold mulpos34, mulv, m. cbn [lin34 trans34 row0 row1 row2]. vunf. rsimpl. apply vec_ext; cbn; ring. }
  rewrite E. split.
  - assert (P : apply34 m (V3 0 0 5) = V3 0 0 5) by (unfold apply34; rewrite A; gunf; cbn; apply vec_ext; cbn; ring). rewrite P. unfold OBB_Contains. rewrite !Abs_R. change (@Dot R Num_R) with dot. change (@vsub R Num_R) with minus. cbn [opos orad oaxis0 oaxis1 oaxis2 vx vy vz]. rsimpl.
    rewrite !andb_true_iff, !Rleb_true. unfold dot, minus. cbn. split; [split|]; apply Rabs_le; lra.
  - intros (_ & _ & _ & _ & O & _). unfold orth, dot in O. cbn in O. lra.
Qed.
Print Assumptions C51_transform_flat_refuted.
(** ** Scaling, and boxes from transformed aligned boxes *)
Lemma scale_about_R (s c x : pt) : apply34 (ScaleAbout34 s c) x = V3 (vx c + vx s * (vx x - vx c)) (vy c + vy s * (vy x - vy c)) (vz c + vz s * (vz x - vz c)).
Proof.
  unfold ScaleAbout34, TimesTranslate34, TranslateScale, apply34. cbn [lin34 trans34]. rewrite mulpos34_apply. unfold apply34, apply, ScaleOp3, mk3, vneg. cbn [lin34 trans34 row0 row1 row2]. rsimpl. unfold n0, n1. rsimpl. gunf. cbn [vx vy vz]. apply vec_ext; cbn [vx vy vz]; ring.
Qed.
Theorem C51_scale (o : obb R) (c s : pt) : obb_ok o ->
  let able (b : mat3 R) := sizeable (apply b (scale (vx (orad o)) (oaxis0 o))) /\ sizeable (apply b (scale (vy (orad o)) (oaxis1 o))) /\ sizeable (apply b (scale (vz (orad o)) (oaxis2 o))) in
  able (lin34 (ScaleAbout34 s c)) ->
  forall p, in_obb (OBB_Scale o c s) p <-> exists x, in_obb o x /\ p = V3 (vx c + vx s * (vx x - vx c)) (vy c + vy s * (vy x - vy c)) (vz c + vz s * (vz x - vz c)).
Proof.
  intros K able A p. destruct (C51_transforms o (ScaleAbout34 s c) (lin34 (ScaleAbout34 s c)) (Q4 0 0 0 1) c K) as (_ & _ & H & _). unfold OBB_Scale. rewrite (H A p). unfold image.
  split; intros (x & I & E); exists x; (split; [exact I|]); [now rewrite scale_about_R in E|now rewrite scale_about_R].
Qed.
Print Assumptions C51_scale.
Lemma uniform_scales c k : 0 < k -> scales_by (apply (lin34 (ScaleAbout34 (V3 k k k) c))) k.
Proof.
  intros K v. replace (apply (lin34 (ScaleAbout34 (V3 k k k) c)) v) with (scale k v); [rewrite norm_scale, Rabs_pos_eq by lra; reflexivity|].
  unfold ScaleAbout34, TimesTranslate34, TranslateScale, apply, ScaleOp3, mk3. cbn [lin34 row0 row1 row2]. rsimpl. unfold n0, n1. rsimpl. gunf. cbn [vx vy vz]. apply vec_ext; cbn [vx vy vz]; ring.
Qed.
(** Uniform scaling keeps a proper box; nonuniform scaling of a turned box does not: the result no longer contains the images of its points. *)
Theorem C51_scale_uniform (o : obb R) (c : pt) k : framed o -> thick o -> 0 < k -> 1 / 1000000 < k * vx (orad o) -> 1 / 1000000 < k * vy (orad o) -> 1 / 1000000 < k * vz (orad o) ->
  let o' := OBB_Scale o c (V3 k k k) in framed o' /\ thick o' /\ orad o' = scale k (orad o) /\ forall p, OBB_Contains o' (plus c (scale k (minus p c))) = OBB_Contains o p.
Proof.
  intros F K Hk X Y Z o'. destruct (C51_transform_frame o (ScaleAbout34 (V3 k k k) c) k F K Hk (uniform_scales c k Hk) X Y Z) as (F' & T' & R' & I). fold o' in F', T', R', I |- *. split; [exact F'|]. split; [exact T'|]. split; [exact R'|].
  intros p. rewrite <- (I p), scale_about_R. f_equal.
Qed.
Print Assumptions C51_scale_uniform.
Theorem C51_scale_nonuniform_refuted : exists (o : obb R) (c s p : pt), framed o /\ thick o /\ 0 < vx s /\ 0 < vy s /\ 0 < vz s /\ in_obb o p /\
  OBB_Contains (OBB_Scale o c s) (V3 (vx c + vx s * (vx p - vx c)) (vy c + vy s * (vy p - vy c)) (vz c + vz s * (vz p - vz c))) = false.
Proof.
  set (o := Obb (V3 0 0 0) (V3 1 1 1) (V3 (3/5) (4/5) 0) (V3 (-(4/5)) (3/5) 0) (V3 0 0 1) : obb R). set (s := V3 (5/3) (15/4) 1 : pt). exists o, (V3 0 0 0), s, (V3 (-(1/5)) (7/5) 0).
  assert (F : framed o) by (unfold framed, unitv, orth, dot; cbn; repeat split; field). split; [exact F|]. split; [unfold thick; cbn; lra|]. split; [cbn; lra|]. split; [cbn; lra|]. split; [cbn; lra|]. split; [apply (in_obb_crd o _ F); unfold within_r, crd0, crd1, crd2, dot, minus; cbn; lra|].
  unfold OBB_Scale, OBB_Transform34, OBBTransform. change (muldir34 (ScaleAbout34 s (V3 0 0 0))) with (apply (lin34 (ScaleAbout34 s (V3 0 0 0)))).
  assert (L : forall v : pt, apply (lin34 (ScaleAbout34 s (V3 0 0 0))) v = V3 (5/3 * vx v) (15/4 * vy v) (vz v)).
  { intros v. unfold ScaleAbout34, TimesTranslate34, TranslateScale, apply, ScaleOp3, mk3. cbn [lin34 row0 row1 row2]. rsimpl. unfold n0, n1. rsimpl. unfold dot, s. cbn [vx vy vz]. apply vec_ext; cbn [vx vy vz]; ring. }
  rewrite !L, mulpos34_apply, scale_about_R.
  assert (E0 : Normalize (V3 (5/3 * vx (smulv (vx (orad o)) (oaxis0 o))) (15/4 * vy (smulv (vx (orad o)) (oaxis0 o))) (vz (smulv (vx (orad o)) (oaxis0 o)))) = (scale (/ norm (V3 1 3 0)) (V3 1 3 0), norm (V3 1 3 0))).
  { replace (V3 (5/3 * vx (smulv (vx (orad o)) (oaxis0 o))) (15/4 * vy (smulv (vx (orad o)) (oaxis0 o))) (vz (smulv (vx (orad o)) (oaxis0 o)))) with (V3 1 3 0 : pt) by (unfold o; vunf; cbn; apply vec_ext; cbn; lra).
    rewrite Normalize_R. change eps6 with (1 / 1000000). rewrite (proj2 (Rltb_true _ _)); [reflexivity|]. assert (norm (V3 1 3 0) * norm (V3 1 3 0) = 10) by (rewrite norm_sq; unfold dot; cbn; ring). pose proof (norm_pos (V3 1 3 0)). nra. }
  rewrite E0. set (n1' := Normalize _). destruct n1' as [a1 r1]. set (n2' := Normalize _). destruct n2' as [a2 r2].
  unfold OBB_Contains. rewrite !Abs_R. change (@Dot R Num_R) with dot. change (@vsub R Num_R) with minus. cbn [opos orad oaxis0 oaxis1 oaxis2 vx vy vz]. rsimpl. apply andb_false_iff. left. apply andb_false_iff. left. rewrite Rleb_false.
  assert (N : norm (V3 1 3 0) * norm (V3 1 3 0) = 10) by (rewrite norm_sq; unfold dot; cbn; ring). pose proof (norm_pos (V3 1 3 0)) as P. set (n := norm (V3 1 3 0)) in *. assert (Hn : 0 < n) by nra.
  match goal with |- n < Rabs ?e => replace e with (185 / 12 * / n) by (unfold dot, minus, scale, s; cbn [opos vx vy vz o]; field; lra) end.
  assert (I : 0 < / n) by (apply Rinv_0_lt_compat; lra). rewrite Rabs_pos_eq by lra. replace n with (10 * / n) at 1; [lra|]. rewrite <- N. field. lra.
Qed.
Print Assumptions C51_scale_nonuniform_refuted.
(** Boxes from aligned boxes moved by a similarity. *)
Theorem C51_set_from (b : aabb R) (m : mat34 R) (a : mat3 R) (q : quat R) k : box_ok b -> 0 < k ->
  (scales_by (apply (lin34 m)) k -> framed (OBB_SetFrom34 b m) /\ forall p, in_obb (OBB_SetFrom34 b m) p <-> image (apply34 m) (in_box b) p) /\
  (scales_by (apply a) k -> framed (OBB_SetFrom3 b a) /\ forall p, in_obb (OBB_SetFrom3 b a) p <-> image (apply a) (in_box b) p) /\
  (unitq q -> framed (OBB_SetFromQuat b q) /\ forall p, in_obb (OBB_SetFromQuat b q) p <-> image (apply (FromQuat q)) (in_box b) p).
Proof.
  intros B K.
  assert (G : forall (c : mat3 R) (t : pt) j, 0 < j -> scales_by (apply c) j -> framed (OBBSetFrom b c (fun x => plus (apply c x) t)) /\ forall p, in_obb (OBBSetFrom b c (fun x => plus (apply c x) t)) p <-> image (fun x => plus (apply c x) t) (in_box b) p).
  { intros c t j J S. pose proof (scales_dot c j S) as D.
    assert (C0 : col0 c = apply c (V3 1 0 0)) by (unfold apply, col0, dot; cbn [vx vy vz]; apply vec_ext; cbn [vx vy vz]; ring). assert (C1 : col1 c = apply c (V3 0 1 0)) by (unfold apply, col1, dot; cbn [vx vy vz]; apply vec_ext; cbn [vx vy vz]; ring). assert (C2 : col2 c = apply c (V3 0 0 1)) by (unfold apply, col2, dot; cbn [vx vy vz]; apply vec_ext; cbn [vx vy vz]; ring).
    assert (MS : nsqrt (LengthSq (col0 c)) = j) by (change (nsqrt (LengthSq (col0 c))) with (Length (col0 c)); now apply scales_col).
    assert (E : OBBSetFrom b c (fun x => plus (apply c x) t) = Obb (plus (apply c (AABB_CenterPoint b)) t) (scale j (AABB_HalfSize b)) (scale (/ j) (col0 c)) (scale (/ j) (col1 c)) (scale (/ j) (col2 c))).
    { unfold OBBSetFrom. cbv zeta. rewrite MS, !vmuls_R. rsimpl. replace (1 / j) with (/ j) by (field; lra). rewrite Orthonormalize3_id; [reflexivity|..]; unfold unitv, orth; rewrite dot_scale_l, dot_scale_r, ?C0, ?C1, ?C2, D; unfold dot; cbn [vx vy vz]; field; lra. }
    rewrite E. split.
    - repeat split; unfold unitv, orth; cbn [oaxis0 oaxis1 oaxis2]; rewrite dot_scale_l, dot_scale_r, ?C0, ?C1, ?C2, D; unfold dot; cbn [vx vy vz]; field; lra.
    - intros p. unfold image. destruct (C52_from_aabb b (Sph origin 0)) as (_ & _ & OK & _ & IN & _). specialize (OK B). 
      assert (K' : obb_ok (Obb (plus (apply c (AABB_CenterPoint b)) t) (scale j (AABB_HalfSize b)) (scale (/ j) (col0 c)) (scale (/ j) (col1 c)) (scale (/ j) (col2 c)))) by (unfold obb_ok, OBB_FromAABB in *; unfold scale; cbn [orad vx vy vz] in *; repeat split; nra).
      rewrite (in_obb_unit _ p K'). cbn [opos orad oaxis0 oaxis1 oaxis2 vx vy vz].
      assert (AL : forall s u v, plus (plus (apply c (AABB_CenterPoint b)) t) (plus (scale s (scale (vx (scale j (AABB_HalfSize b))) (scale (/ j) (col0 c)))) (plus (scale u (scale (vy (scale j (AABB_HalfSize b))) (scale (/ j) (col1 c)))) (scale v (scale (vz (scale j (AABB_HalfSize b))) (scale (/ j) (col2 c)))))) =
         plus (apply c (plus (AABB_CenterPoint b) (plus (scale s (scale (vx (AABB_HalfSize b)) (V3 1 0 0))) (plus (scale u (scale (vy (AABB_HalfSize b)) (V3 0 1 0))) (scale v (scale (vz (AABB_HalfSize b)) (V3 0 0 1))))))) t).
      { intros. set (h := AABB_HalfSize b). set (g := AABB_CenterPoint b). clearbody h g. unfold apply, col0, col1, col2. gunf. apply vec_ext; cbn [vx vy vz]; field; lra. }
      split.
      + intros (s & u & v & S1 & S2 & S3 & ->). rewrite AL. eexists. split; [|reflexivity]. apply IN. apply in_obb_unit; [exact OK|]. exists s, u, v. tauto.
      + intros (x & X & ->). apply IN in X. apply (in_obb_unit _ x OK) in X. destruct X as (s & u & v & S1 & S2 & S3 & ->). exists s, u, v. rewrite AL. tauto. }
  assert (G3 : forall (c : mat3 R) j, 0 < j -> scales_by (apply c) j -> framed (OBB_SetFrom3 b c) /\ forall p, in_obb (OBB_SetFrom3 b c) p <-> image (apply c) (in_box b) p).
  { intros c j J S. assert (Z : forall x, plus (apply c x) origin = apply c x) by (intros; unfold origin; gunf; apply vec_ext; cbn [vx vy vz]; ring). destruct (G c origin j J S) as [F I].
    assert (E : OBBSetFrom b c (fun x => plus (apply c x) origin) = OBB_SetFrom3 b c) by (unfold OBB_SetFrom3, OBBSetFrom; now rewrite Z). rewrite E in F, I. split; [exact F|]. intros p. rewrite I. unfold image. split; intros (w & W & ->); exists w; (split; [exact W|]); [apply Z|now rewrite Z]. }
  split; [|split].
  - intros S. exact (G (lin34 m) (trans34 m) k K S).
  - intros S. exact (G3 a k K S).
  - intros Q. destruct (quat_rotation q Q) as (D & _). apply (G3 (FromQuat q) 1); [lra|]. intros x. unfold norm. rewrite D. ring.
Qed.
Print Assumptions C51_set_from.
