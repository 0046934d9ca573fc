(** C84 continued: bounding boxes, points by coordinates, nearest points, normals, transforms. *)
From Coq Require Import Reals Psatz List Bool Permutation.
From Verif Require Import Num NumR ScalarModel ScalarProofs Vec3Model GeoTypes GeoSpec GeoLemmas Vec3Props AabbModel AabbSpec AabbProofs AabbProps AabbProps2 MatModel MatSpec MatProofs MatProofs2 LineModel LineSpec LineProofs LineProofs2
  RotModel RotSpec RotProofs PlaneModel PlaneSpec PlaneProps SphereSpec ObbModel ObbProps ObbProps4 Vec2Model FrustumModel FrustumSpec FrustumProps FrustumProps2.
Import ListNotations.
Open Scope R_scope.
Ltac Zify.zify_post_hook ::= idtac.

(** ** Bounding boxes *)
Lemma convex_box (b : aabb R) : convex (in_box b).
Proof. intros x y k X Y K. unfold in_box in *. unfold plus, scale, minus. cbn [vx vy vz]. repeat split; nra. Qed.
Lemma enclose_fold c : forall (l : list nat) (g : nat -> pt) b, (within (fold_left (fun b i => AABB_Enclose b (g i)) l b) c <-> within b c /\ forall i, In i l -> in_box c (g i)).
Proof.
  induction l as [|i l IH]; intros g b; cbn [fold_left].
  - split; [intros W; split; [exact W|intros _ []]|now intros []].
  - rewrite IH. change (AABB_Enclose b (g i)) with (AABB_EncloseMinMax b (g i) (g i)). rewrite encloseMM_within by auto. rewrite <- inside_within, inside_R. split.
    + intros [[A B] C]. split; [exact A|]. intros j [<-|J]; [exact B|now apply C].
    + intros [A B]. split; [split; [exact A|apply B; now left]|]. intros j J. apply B. now right.
Qed.
Theorem C84_aabb (f : frustum R) : frustum_ok f ->
  (forall p, in_frustum f p -> in_box (Frustum_MinimalEnclosingAABB f) p) /\ forall c, (forall p, in_frustum f p -> in_box c p) -> forall p, in_box (Frustum_MinimalEnclosingAABB f) p -> in_box c p.
Proof.
  intros K. assert (W : forall c, within (Frustum_MinimalEnclosingAABB f) c <-> forall p, in_frustum f p -> in_box c p).
  { intros c. unfold Frustum_MinimalEnclosingAABB. rewrite (enclose_fold c (seq 1 7) (Frustum_CornerPoint f)), <- inside_within, inside_R. split.
    - intros [A B] p P. apply (frustum_hull f (in_box c) p K (convex_box c)); [|exact P]. intros x y z. assert (I : In (corner f x y z) (map (Frustum_CornerPoint f) (seq 0 8))) by (apply in_corners; eauto).
      apply in_map_iff in I. destruct I as (i & <- & I). apply in_seq in I. destruct i as [|i]; [exact A|]. apply B, in_seq. Lia.lia.
    - intros H. destruct (C84_corners f K) as (C & _). split; [apply H; apply (C 0%nat); Lia.lia|]. intros i I. apply in_seq in I. apply H, C. Lia.lia. }
  split; [apply W; apply within_R; lra|]. intros c H p P. apply W in H. apply inside_R. eapply within_inside; [exact H|]. now apply inside_R.
Qed.
Print Assumptions C84_aabb.
Lemma enclose_axes (o : obb R) p : oaxis0 (OBB_Enclose o p) = oaxis0 o /\ oaxis1 (OBB_Enclose o p) = oaxis1 o /\ oaxis2 (OBB_Enclose o p) = oaxis2 o.
Proof. unfold OBB_Enclose. do 3 destruct OBB_encloseAxis. repeat split. Qed.
Lemma obb_fold (g : nat -> pt) : forall l o, framed o -> obb_ok o -> let o' := fold_left (fun b i => OBB_Enclose b (g i)) l o in
  framed o' /\ obb_ok o' /\ (oaxis0 o' = oaxis0 o /\ oaxis1 o' = oaxis1 o /\ oaxis2 o' = oaxis2 o) /\ (forall w, in_obb o w -> in_obb o' w) /\ (forall i, In i l -> in_obb o' (g i)) /\
  forall q, oaxis0 q = oaxis0 o -> oaxis1 q = oaxis1 o -> oaxis2 q = oaxis2 o -> (forall w, in_obb o w -> in_obb q w) -> (forall i, In i l -> in_obb q (g i)) -> forall w, in_obb o' w -> in_obb q w.
Proof.
  induction l as [|i l IH]; intros o F K; cbn [fold_left].
  - repeat (split; [try assumption; try reflexivity|]); auto; try contradiction.
  - destruct (C51_enclose o (g i) F K) as (F1 & K1 & I1 & P1 & M1). destruct (enclose_axes o (g i)) as (A0 & A1 & A2).
    destruct (IH (OBB_Enclose o (g i)) F1 K1) as (F2 & K2 & (B0 & B1 & B2) & I2 & P2 & M2). cbv zeta. set (o' := fold_left _ _ _) in *. clearbody o'.
    split; [exact F2|]. split; [exact K2|]. split; [repeat split; congruence|]. split; [auto|]. split; [intros j [<-|J]; auto|].
    intros q Q0 Q1 Q2 QO QL w W. apply (M2 q); [congruence|congruence|congruence| |intros j J; apply QL; now right|exact W].
    intros v V. apply (M1 q Q0 Q1 Q2 QO); [apply QL; now left|exact V].
Qed.
(** The oriented bounding box: along the frustum's axes, containing the region; with no guard band the least such box. *)
Theorem C84_obb (f : frustum R) (g : R) : frustum_ok f -> 0 <= g -> let o := Frustum_MinimalEnclosingOBB f g in
  framed o /\ obb_ok o /\ oaxis1 o = fup f /\ oaxis2 o = scale (-1) (ffront f) /\
  (forall p w, in_frustum f p -> Rabs (vx w) <= g -> Rabs (vy w) <= g -> Rabs (vz w) <= g -> in_obb o (plus p (plus (scale (vx w) (oaxis0 o)) (plus (scale (vy w) (oaxis1 o)) (scale (vz w) (oaxis2 o)))))) /\
  (g = 0 -> forall q, oaxis0 q = oaxis0 o -> oaxis1 q = oaxis1 o -> oaxis2 q = oaxis2 o -> (forall p, in_frustum f p -> in_obb q p) -> forall p, in_obb o p -> in_obb q p).
Proof.
  intros K G. cbv zeta. unfold Frustum_MinimalEnclosingOBB. cbv zeta. set (o0 := Obb _ (V3 n0 n0 n0) _ _ _). destruct (dot_right_front f K) as (RF & RU & UF & RR & UU & FF).
  assert (F0 : framed o0).
  { change (framed (Obb (opos o0) (orad o0) (cross (fup f) (vneg (ffront f))) (fup f) (vneg (ffront f)))). unfold framed. cbn [oaxis0 oaxis1 oaxis2]. rewrite vneg_R. unfold unitv, orth. rewrite cross_sq, (dot_comm (cross _ _) (fup f)), cross_dot_l, (dot_comm (cross _ _) (scale _ _)), cross_dot_r, !dot_scale_r, !dot_scale_l, UU, FF, UF. repeat split; ring. }
  assert (K0 : obb_ok o0) by (unfold obb_ok, o0; cbn [orad vx vy vz]; rsimpl; lra).
  destruct (C84_corners f K) as (C & _ & _ & _ & _ & CC).
  destruct (obb_fold (Frustum_CornerPoint f) (seq 0 8) o0 F0 K0) as (F1 & K1 & (A0 & A1 & A2) & I1 & P1 & M1). cbv zeta in *. set (o1 := fold_left _ _ _) in *. clearbody o1. rsimpl.
  assert (IN : forall p, in_frustum f p -> in_obb o1 p).
  { intros p P. apply (frustum_hull f (in_obb o1) p K); [apply convex_obb| |exact P]. intros x y z. assert (I : In (corner f x y z) (map (Frustum_CornerPoint f) (seq 0 8))) by (apply in_corners; eauto). apply in_map_iff in I. destruct I as (i & <- & I). now apply P1. }
  set (o := Obb (opos o1) (V3 (vx (orad o1) + g) (vy (orad o1) + g) (vz (orad o1) + g)) (oaxis0 o1) (oaxis1 o1) (oaxis2 o1)).
  assert (Fo : framed o) by exact F1. split; [exact Fo|]. split; [destruct K1 as (X & Y & Z); unfold obb_ok, o; cbn [orad vx vy vz]; lra|]. unfold o at 1 2. cbn [oaxis1 oaxis2]. rewrite A1, A2. unfold o0 at 1 2. cbn [oaxis1 oaxis2]. split; [reflexivity|]. split; [apply vneg_R|]. split.
  - intros p w P W0 W1 W2. destruct (IN p P) as (x & y & z & X & Y & Z & ->). apply Rabs_le_inv2 in W0, W1, W2. exists (x + vx w), (y + vy w), (z + vz w). unfold o. cbn [orad opos oaxis0 oaxis1 oaxis2 vx vy vz]. repeat split; try lra. apply vec_ext; unfold plus, scale; cbn [vx vy vz]; ring.
  - intros -> q Q0 Q1 Q2 H p P. unfold o in Q0, Q1, Q2. cbn [oaxis0 oaxis1 oaxis2] in *. apply (M1 q); [congruence|congruence|congruence| | |].
    + intros v (x & y & z & X & Y & Z & ->). unfold o0 in X, Y, Z. cbn [orad vx vy vz] in *. rsimpl. replace x with 0 by lra. replace y with 0 by lra. replace z with 0 by lra. apply H.
      match goal with |- in_frustum f ?v => replace v with (Frustum_CenterPoint f) by (unfold o0, Frustum_CenterPoint; cbn [opos]; apply vec_ext; unfold plus, scale; vunf; rsimpl; ring) end. exact CC.
    + intros i I. apply in_seq in I. apply H, C. Lia.lia.
    + destruct P as (x & y & z & X & Y & Z & ->). unfold o in X, Y, Z |- *. cbn [orad opos oaxis0 oaxis1 oaxis2 vx vy vz] in *. exists x, y, z. repeat split; lra.
Qed.
Print Assumptions C84_obb.

(** ** Points by coordinates *)
Lemma lerp_view f x y z x' y' z' k : plus (view_point f x y z) (scale k (minus (view_point f x' y' z') (view_point f x y z))) = view_point f (x + k * (x' - x)) (y + k * (y' - y)) (z + k * (z' - z)).
Proof. rewrite !view_at. apply lerp_at. Qed.
Lemma PointInside_R f (x y z : R) : frustum_ok f -> let d := fnear f + z * (ffar f - fnear f) in Frustum_PointInside f x y z = view_point f (x * half_w f d) (y * half_h f d) d.
Proof.
  intros K d. unfold Frustum_PointInside, UnProjectLineSegment, NearPlanePos, FarPlanePos. rewrite Seg_GetPoint_R, !planePos_R. unfold along, sdir. cbn [seg_a seg_b]. rewrite lerp_view.
  destruct (half_affine f K) as (a & b & _ & _ & _ & EW), (half_affine_h f K) as (u & v & _ & _ & _ & EH). unfold d. rewrite !EW, !EH. f_equal; ring.
Qed.
(** [PointInside] maps the box [-1, 1] x [-1, 1] x [0, 1] one-to-one onto the region, linearly in depth; the line segment through a viewport position is what is seen at that position. *)
Theorem C84_points (f : frustum R) : frustum_ok f ->
  (forall x y z, let p := Frustum_PointInside f x y z in depth f p = fnear f + z * (ffar f - fnear f) /\ view_x f p = x * half_w f (depth f p) /\ view_y f p = y * half_h f (depth f p)) /\
  (forall p, in_frustum f p <-> exists x y z, -1 <= x <= 1 /\ -1 <= y <= 1 /\ 0 <= z <= 1 /\ p = Frustum_PointInside f x y z) /\
  (forall x y z x' y' z', 0 <= z -> 0 <= z' -> Frustum_PointInside f x y z = Frustum_PointInside f x' y' z' -> x = x' /\ y = y' /\ z = z') /\
  (forall x y p, on_segment (UnProjectLineSegment f x y) p <-> fnear f <= depth f p <= ffar f /\ view_x f p = x * half_w f (depth f p) /\ view_y f p = y * half_h f (depth f p)).
Proof.
  intros K. pose proof K as (_ & _ & _ & N & _).
  assert (C : forall x y z, let p := Frustum_PointInside f x y z in depth f p = fnear f + z * (ffar f - fnear f) /\ view_x f p = x * half_w f (depth f p) /\ view_y f p = y * half_h f (depth f p)).
  { intros x y z p. unfold p. rewrite (PointInside_R f x y z K). match goal with |- depth f (view_point f ?u ?v ?w) = _ /\ _ => destruct (view_of_point f u v w K) as (-> & -> & ->) end. repeat split. }
  assert (DP : forall z, 0 <= z -> 0 < fnear f + z * (ffar f - fnear f)) by (intros; nra).
  split; [exact C|]. split; [|split].
  - intros p. split.
    + intros I. pose proof I as (Z & X & Y). destruct (half_pos f (depth f p) K) as (WP & HP); [lra|]. exists (view_x f p / half_w f (depth f p)), (view_y f p / half_h f (depth f p)), ((depth f p - fnear f) / (ffar f - fnear f)).
      assert (AB : forall u w, 0 < w -> - w <= u <= w -> -1 <= u / w <= 1) by (intros u w W U; pose proof (Rinv_0_lt_compat w W); pose proof (Rinv_r w ltac:(lra)); unfold Rdiv; nra).
      split; [now apply AB|]. split; [now apply AB|]. split; [apply div_01; lra|]. rewrite (PointInside_R f _ _ _ K). rewrite <- (point_of_view f p K) at 1. replace (fnear f + (depth f p - fnear f) / (ffar f - fnear f) * (ffar f - fnear f)) with (depth f p) by (field; lra). f_equal; field; lra.
    + intros (x & y & z & X & Y & Z & ->). destruct (C x y z) as (D & VX & VY). unfold in_frustum. rewrite VX, VY. pose proof (DP z (proj1 Z)) as DZ. rewrite <- D in DZ. destruct (half_pos f _ K DZ) as (WP & HP). split; [rewrite D; nra|]. split; nra.
  - intros x y z x' y' z' Z Z' E. destruct (C x y z) as (D & VX & VY), (C x' y' z') as (D' & VX' & VY'). rewrite <- E in *. pose proof (DP z Z) as DZ. rewrite <- D in DZ. destruct (half_pos f _ K DZ) as (WP & HP).
    rewrite VX in VX'. rewrite VY in VY'. rewrite D in D'. split; [apply Rmult_eq_reg_r with (half_w f (depth f (Frustum_PointInside f x y z))); lra|]. split; [apply Rmult_eq_reg_r with (half_h f (depth f (Frustum_PointInside f x y z))); lra|].
    apply Rmult_eq_reg_r with (ffar f - fnear f); lra.
  - intros x y p. split.
    + intros (t & T & E). assert (E' : p = Frustum_PointInside f x y t) by (unfold Frustum_PointInside; rewrite Seg_GetPoint_R; exact E). rewrite E'. destruct (C x y t) as (D & VX & VY). split; [rewrite D; nra|]. tauto.
    + intros (Z & X & Y). exists ((depth f p - fnear f) / (ffar f - fnear f)). split; [apply div_01; lra|]. change (p = along (seg_a (UnProjectLineSegment f x y)) (sdir (UnProjectLineSegment f x y)) ((depth f p - fnear f) / (ffar f - fnear f))).
      rewrite <- Seg_GetPoint_R. change (p = Frustum_PointInside f x y ((depth f p - fnear f) / (ffar f - fnear f))). rewrite (PointInside_R f _ _ _ K). rewrite <- (point_of_view f p K) at 1. replace (fnear f + (depth f p - fnear f) / (ffar f - fnear f) * (ffar f - fnear f)) with (depth f p) by (field; lra). now rewrite X, Y.
Qed.
Print Assumptions C84_points.
(** The view rays: unit direction, starting at the eye or the near plane, and going through what is seen at that viewport position. *)
Lemma ray_points f (K : frustum_ok f) (a : pt) (v : pt) x y d0 : 1 / 1000000 < norm v -> a = view_point f (x * half_w f d0) (y * half_h f d0) d0 ->
  (exists w, 0 < w /\ forall k, plus a (scale k v) = view_point f (x * half_w f (d0 + k * w)) (y * half_h f (d0 + k * w)) (d0 + k * w)) ->
  unitv (rdir (Ry a (Normalized v))) /\ forall p, on_ray (Ry a (Normalized v)) p <-> d0 <= depth f p /\ view_x f p = x * half_w f (depth f p) /\ view_y f p = y * half_h f (depth f p).
Proof.
  intros NV Ea (w & W & L). destruct (Normalized_scale v NV) as (k & Kp & E & U). split; [exact U|]. intros p. unfold on_ray. cbn [rpos rdir]. unfold along. rewrite E. split.
  - intros (t & T & ->). rewrite scale_scale, L. match goal with |- _ <= depth f (view_point f ?u ?v ?w) /\ _ => destruct (view_of_point f u v w K) as (-> & -> & ->) end. repeat split. assert (0 <= t * k) by nra. nra.
  - intros (Z & X & Y). exists ((depth f p - d0) / (k * w)). split; [apply Rmult_le_pos; [lra|left; apply Rinv_0_lt_compat; nra]|]. rewrite scale_scale, L. rewrite <- (point_of_view f p K) at 1.
    replace (d0 + (depth f p - d0) / (k * w) * k * w) with (depth f p) by (field; lra). now rewrite X, Y.
Qed.
Lemma view_norm f x y z : frustum_ok f -> Rabs z <= norm (minus (view_point f x y z) (fpos f)).
Proof.
  intros K. pose proof (coord_le_norm) as _. destruct (view_of_point f x y z K) as (_ & _ & D). unfold depth in D. destruct (dot_right_front f K) as (_ & _ & _ & _ & _ & FF).
  pose proof (cauchy (minus (view_point f x y z) (fpos f)) (ffront f)) as C. rewrite D in C. assert (NF : norm (ffront f) = 1) by (unfold norm; rewrite FF; apply sqrt_1). rewrite NF in C. lra.
Qed.
Theorem C84_rays (f : frustum R) (x y : R) : frustum_ok f -> 1 / 1000000 < fnear f -> 1 / 1000000 < ffar f - fnear f ->
  (let r := UnProject f x y in unitv (rdir r) /\ (rpos r = match ftype f with PerspectiveFrustum => fpos f | _ => NearPlanePos f x y end) /\
     forall p, on_ray r p <-> (match ftype f with PerspectiveFrustum => 0 | _ => fnear f end) <= depth f p /\ view_x f p = x * half_w f (depth f p) /\ view_y f p = y * half_h f (depth f p)) /\
  (let r := UnProjectFromNearPlane f x y in unitv (rdir r) /\ rpos r = NearPlanePos f x y /\
     forall p, on_ray r p <-> fnear f <= depth f p /\ view_x f p = x * half_w f (depth f p) /\ view_y f p = y * half_h f (depth f p)).
Proof.
  intros K N FN. pose proof K as (_ & _ & _ & NF & _). destruct (half_affine f K) as (a & b & _ & _ & _ & EW), (half_affine_h f K) as (u & v & _ & _ & _ & EH).
  assert (G : let r := UnProjectFromNearPlane f x y in unitv (rdir r) /\ rpos r = NearPlanePos f x y /\ forall p, on_ray r p <-> fnear f <= depth f p /\ view_x f p = x * half_w f (depth f p) /\ view_y f p = y * half_h f (depth f p)).
  { cbv zeta. unfold UnProjectFromNearPlane, Ray_FromSegment, UnProjectLineSegment, Seg_Dir. cbn [seg_a seg_b]. unfold NearPlanePos, FarPlanePos. rewrite !planePos_R. change (@vsub R Num_R) with minus.
    set (A := view_point f _ _ (fnear f)). set (B := view_point f _ _ (ffar f)).
    assert (NV : 1 / 1000000 < norm (minus B A)).
    { assert (D : dot (minus B A) (ffront f) = ffar f - fnear f). { unfold A, B. transitivity (depth f B - depth f A); [unfold depth, A, B; rewrite !dot_minus_l; ring|]. unfold A, B. destruct (view_of_point f (x * half_w f (fnear f)) (y * half_h f (fnear f)) (fnear f) K) as (_ & _ & ->). destruct (view_of_point f (x * half_w f (ffar f)) (y * half_h f (ffar f)) (ffar f) K) as (_ & _ & ->). reflexivity. }
      destruct (dot_right_front f K) as (_ & _ & _ & _ & _ & FF). pose proof (cauchy (minus B A) (ffront f)) as C. rewrite D in C. assert (NFr : norm (ffront f) = 1) by (unfold norm; rewrite FF; apply sqrt_1). rewrite NFr in C. pose proof (Rle_abs (ffar f - fnear f)). lra. }
    destruct (ray_points f K A (minus B A) x y (fnear f) NV eq_refl) as (Un & H).
    { exists (ffar f - fnear f). split; [lra|]. intros k. unfold A, B. rewrite lerp_view, !EW, !EH. f_equal; ring. }
    split; [exact Un|]. split; [reflexivity|exact H]. }
  split; [|exact G]. cbv zeta. unfold UnProject, persp. destruct (ftype f) eqn:TY; [exact G|exact G|].
  unfold NearPlanePos. rewrite planePos_R. change (@vsub R Num_R) with minus. set (A := view_point f _ _ (fnear f)).
  assert (NV : 1 / 1000000 < norm (minus A (fpos f))). { pose proof (view_norm f (x * half_w f (fnear f)) (y * half_h f (fnear f)) (fnear f) K) as C. fold A in C. rewrite Rabs_right in C by lra. lra. }
  destruct (ray_points f K (fpos f) (minus A (fpos f)) x y 0 NV) as (Un & H).
  { unfold half_w, half_h. rewrite TY. unfold view_point. apply vec_ext; unfold plus, scale; cbn [vx vy vz]; ring. }
  { exists (fnear f). split; [lra|]. intros k. unfold A, half_w, half_h. rewrite TY. unfold view_point. apply vec_ext; unfold plus, minus, scale; cbn [vx vy vz]; ring. }
  split; [exact Un|]. split; [reflexivity|exact H].
Qed.
Print Assumptions C84_rays.

(** ** Orthographic frustums are oriented boxes: nearest points *)
Definition ortho_box (f : frustum R) : obb R :=
  Obb (plus (fpos f) (scale ((ffar f - fnear f) * (1 / 2) + fnear f) (ffront f))) (V3 ((ffar f - fnear f) * (1 / 2)) (fhw f * (1 / 2)) (fvh f * (1 / 2))) (ffront f) (cross (ffront f) (fup f)) (fup f).
Lemma right_sign f : exists s, s * s = 1 /\ cross (ffront f) (fup f) = scale s (fright f).
Proof.
  unfold fright. change xprod with cross. destruct (fhand f); [exists (-1)|exists (-1)|exists 1]; (split; [ring|]); unfold cross, scale; apply vec_ext; cbn [vx vy vz]; ring.
Qed.
Lemma ortho_box_region f p : frustum_ok f -> ftype f = OrthographicFrustum -> framed (ortho_box f) /\ obb_ok (ortho_box f) /\ (in_obb (ortho_box f) p <-> in_frustum f p).
Proof.
  intros K TY. destruct (dot_right_front f K) as (RF & RU & UF & RR & UU & FF). pose proof K as (U1 & U2 & O & N & L). rewrite TY in L. destruct (right_sign f) as (s & S & ES).
  assert (F : framed (ortho_box f)).
  { unfold framed, ortho_box. cbn [oaxis0 oaxis1 oaxis2]. rewrite ES. unfold unitv, orth. rewrite !dot_scale_r, !dot_scale_l, (dot_comm (ffront f) (fright f)), (dot_comm (ffront f) (fup f)), RF, RU, UF, UU, FF, RR. repeat split; lra. }
  split; [exact F|]. split; [unfold obb_ok, ortho_box; cbn [orad vx vy vz]; lra|]. rewrite (in_obb_crd _ p F). unfold within_r, in_frustum, half_w, half_h. rewrite TY.
  assert (C0 : crd0 (ortho_box f) p = depth f p - ((ffar f - fnear f) * (1 / 2) + fnear f)).
  { unfold crd0, ortho_box, depth. cbn [opos oaxis0]. rewrite !dot_minus_l, dot_plus_l, dot_scale_l, FF. ring. }
  assert (C1 : crd1 (ortho_box f) p = s * view_x f p).
  { unfold crd1, ortho_box, view_x. cbn [opos oaxis1]. rewrite ES, dot_scale_r, !dot_minus_l, dot_plus_l, dot_scale_l, (dot_comm (ffront f) (fright f)), RF. ring. }
  assert (C2 : crd2 (ortho_box f) p = view_y f p).
  { unfold crd2, ortho_box, view_y. cbn [opos oaxis2]. rewrite !dot_minus_l, dot_plus_l, dot_scale_l, (dot_comm (ffront f) (fup f)), UF. ring. }
  rewrite C0, C1, C2. unfold ortho_box. cbn [orad vx vy vz]. assert (SS : s = 1 \/ s = -1) by (destruct (Rle_or_lt 0 s); [left|right]; nra). destruct SS as [ -> | -> ]; lra.
Qed.
Theorem C84_closest (f : frustum R) (p : pt) : frustum_ok f -> ftype f = OrthographicFrustum -> exists q, Frustum_ClosestPoint f p = Some q /\ nearest (in_frustum f) p q.
Proof.
  intros K TY. assert (R0 := fun p => ortho_box_region f p K TY). destruct (R0 p) as (F & O & _). destruct (C51_closest (ortho_box f) p F O) as (I & NE & _).
  exists (OBB_ClosestPoint (ortho_box f) p). split.
  - unfold Frustum_ClosestPoint. rewrite TY. f_equal.
  - split; [now apply R0|]. intros w W. rewrite (dist_sym _ p), (dist_sym w p). apply NE. now apply R0.
Qed.
Print Assumptions C84_closest.

(** ** Normals and edge directions *)
Definition parallel (a b : pt) : Prop := exists k, k <> 0 /\ a = scale k b.
Lemma halfspace_normal f P g v : halfspace f P g -> (forall p q, dot v (minus p q) = g p - g q) -> same_dir (pnormal P) v.
Proof.
  intros (U & k & Kp & H) G. exists k. split; [exact Kp|]. assert (E : forall q, dot (pnormal P) q = dot (scale k v) q).
  { intros q. pose proof (H q) as H1. pose proof (H origin) as H2. rewrite SD_R in H1, H2. unfold height in *. pose proof (G q origin) as H3. rewrite dot_scale_l. rewrite dot_minus_r in H3.
    assert (Z : forall w, dot w origin = 0) by (intros; unfold dot, origin; cbn; ring). rewrite Z in *. nra. }
  pose proof (E (V3 1 0 0)). pose proof (E (V3 0 1 0)). pose proof (E (V3 0 0 1)). unfold dot, scale in *. cbn [vx vy vz] in *. apply vec_ext; cbn [vx vy vz]; lra.
Qed.
(** The face normals point out of the region in the directions of the view frame. *)
Lemma normals_R f : frustum_ok f -> let t := match ftype f with PerspectiveFrustum => tan (fhw f / 2) | _ => 0 end in let u := match ftype f with PerspectiveFrustum => tan (fvh f / 2) | _ => 0 end in
  pnormal (NearPlane f) = scale (-1) (ffront f) /\ pnormal (FarPlane f) = ffront f /\
  same_dir (pnormal (LeftPlane f)) (minus (scale (-1) (fright f)) (scale t (ffront f))) /\ same_dir (pnormal (RightPlane f)) (minus (fright f) (scale t (ffront f))) /\
  same_dir (pnormal (TopPlane f)) (minus (fup f) (scale u (ffront f))) /\ same_dir (pnormal (BottomPlane f)) (minus (scale (-1) (fup f)) (scale u (ffront f))).
Proof.
  intros K t u. destruct (frustum_planes f K) as (_ & _ & HL & HR & HT & HB). split; [apply vneg_R|]. split; [reflexivity|].
  repeat split; (eapply halfspace_normal; [eassumption|]); intros p q; unfold t, u, half_w, half_h, view_x, view_y, depth; destruct (ftype f); rewrite ?dot_minus_l, ?dot_scale_l, !dot_minus_r, ?dot_minus_l, ?dot_scale_l, ?(dot_comm (fright f)), ?(dot_comm (fup f)), ?(dot_comm (ffront f)); ring.
Qed.
Lemma same_dir_parallel a b : same_dir a b -> parallel a b. Proof. intros (k & K & ->). exists k. split; [lra|reflexivity]. Qed.
Lemma parallel_refl a : parallel a a. Proof. exists 1. split; [lra|]. now rewrite scale_1. Qed.
Lemma parallel_sym a b : parallel a b -> parallel b a.
Proof. intros (k & K & ->). exists (/ k). split; [now apply Rinv_neq_0_compat|]. rewrite scale_scale, Rinv_l, scale_1 by exact K. reflexivity. Qed.
Lemma parallel_trans a b c : parallel a b -> parallel b c -> parallel a c.
Proof. intros (k & K & ->) (j & J & ->). exists (k * j). split; [now apply Rmult_integral_contrapositive_currified|]. apply scale_scale. Qed.
(** Up to sign, [UniqueFaceNormals] are the normals of the faces and [UniqueEdgeDirections] the directions of the edges. *)
Theorem C84_directions (f : frustum R) : frustum_ok f ->
  (forall i, (i < 6)%nat -> exists n, In n (Frustum_UniqueFaceNormals f) /\ parallel (pnormal (Frustum_GetPlane f i)) n) /\
  (forall n, In n (Frustum_UniqueFaceNormals f) -> unitv n /\ exists i, (i < 6)%nat /\ parallel (pnormal (Frustum_GetPlane f i)) n) /\
  (forall i, (i < 12)%nat -> exists d, In d (Frustum_UniqueEdgeDirections f) /\ parallel (minus (seg_b (Frustum_Edge f i)) (seg_a (Frustum_Edge f i))) d) /\
  (forall d, In d (Frustum_UniqueEdgeDirections f) -> exists i, (i < 12)%nat /\ parallel (minus (seg_b (Frustum_Edge f i)) (seg_a (Frustum_Edge f i))) d) /\
  length (Frustum_UniqueFaceNormals f) = (match ftype f with PerspectiveFrustum => 5 | _ => 3 end)%nat /\ length (Frustum_UniqueEdgeDirections f) = (match ftype f with PerspectiveFrustum => 6 | _ => 3 end)%nat.
Proof.
  intros K. pose proof (C84_planes f K) as (UN & _). destruct (normals_R f K) as (NN & NF & NL & NR & NT & NB). destruct (dot_right_front f K) as (RF & RU & UF & RR & UU & FF). destruct (right_sign f) as (s & S & ES).
  assert (S0 : s <> 0) by (intros ->; lra). assert (NP : parallel (pnormal (NearPlane f)) (ffront f)) by (rewrite NN; exists (-1); split; [lra|reflexivity]).
  assert (FP : parallel (pnormal (FarPlane f)) (ffront f)) by (rewrite NF; apply parallel_refl).
  assert (PRX : parallel (fright f) (cross (ffront f) (fup f))) by (apply parallel_sym; exists s; now split).
  assert (ED : forall m bit, (m < 8)%nat -> (bit < 3)%nat -> Nat.testbit m bit = false -> minus (Frustum_CornerPoint f (m + 2 ^ bit)) (Frustum_CornerPoint f m) =
     match bit with 2 => scale (2 * half_w f (fdist f (Nat.testbit m 0))) (fright f) | 1 => scale (2 * half_h f (fdist f (Nat.testbit m 0))) (fup f)
     | _ => minus (corner f (Nat.testbit m 2) (Nat.testbit m 1) true) (corner f (Nat.testbit m 2) (Nat.testbit m 1) false) end%nat).
  { intros m bit M B T. do 8 (destruct m as [|m]; [do 3 (destruct bit as [|bit]; [try discriminate T; cbn [Nat.pow Nat.add Nat.mul]; rewrite !CornerPoint_R by Lia.lia; cbn [Nat.testbit Nat.odd Nat.even Nat.div2 negb]; try reflexivity; unfold corner, view_point; cbn [sgn fdist]; apply vec_ext; unfold plus, minus, scale; cbn [vx vy vz]; ring|]); exfalso; Lia.lia|]). exfalso; Lia.lia. }
  assert (SK : forall x y, minus (corner f x y true) (corner f x y false) = plus (scale (sgn x * (half_w f (ffar f) - half_w f (fnear f))) (fright f)) (plus (scale (sgn y * (half_h f (ffar f) - half_h f (fnear f))) (fup f)) (scale (ffar f - fnear f) (ffront f)))).
  { intros x y. unfold corner, view_point. cbn [fdist]. apply vec_ext; unfold plus, minus, scale; cbn [vx vy vz]; ring. }
  pose proof K as (_ & _ & _ & N & L). destruct (half_pos f (fnear f) K) as (W1 & H1); [lra|]. destruct (half_pos f (ffar f) K) as (W2 & H2); [lra|].
  assert (EE := C84_edges f K). destruct EE as (E1 & E2 & _).
  assert (DR : forall z, parallel (scale (2 * half_w f (fdist f z)) (fright f)) (fright f)) by (intros z; exists (2 * half_w f (fdist f z)); split; [destruct z; cbn [fdist]; lra|reflexivity]).
  assert (DU : forall z, parallel (scale (2 * half_h f (fdist f z)) (fup f)) (fup f)) by (intros z; exists (2 * half_h f (fdist f z)); split; [destruct z; cbn [fdist]; lra|reflexivity]).
  assert (SZ : forall v, minus v (scale 0 (ffront f)) = v) by (intros; apply vec_ext; unfold minus, scale; cbn [vx vy vz]; ring).
  unfold Frustum_UniqueFaceNormals, Frustum_UniqueEdgeDirections, persp. change (Cross (ffront f) (fup f)) with (cross (ffront f) (fup f)).
  destruct (ftype f) eqn:TY; [contradiction| |].
  - rewrite !SZ in *. apply same_dir_parallel in NL, NR, NT, NB.
    assert (PL : parallel (pnormal (LeftPlane f)) (cross (ffront f) (fup f))) by (eapply parallel_trans; [exact NL|]; eapply parallel_trans; [|exact PRX]; exists (-1); split; [lra|reflexivity]).
    assert (PR : parallel (pnormal (RightPlane f)) (cross (ffront f) (fup f))) by (eapply parallel_trans; [exact NR|exact PRX]).
    assert (PB : parallel (pnormal (BottomPlane f)) (fup f)) by (eapply parallel_trans; [exact NB|]; exists (-1); split; [lra|reflexivity]).
    assert (DF : forall x y, parallel (minus (corner f x y true) (corner f x y false)) (ffront f)).
    { intros x y. exists (ffar f - fnear f). split; [lra|]. rewrite SK. unfold half_w, half_h. rewrite TY. apply vec_ext; unfold plus, scale; cbn [vx vy vz]; ring. }
    split; [|split; [|split; [|split]]].
    + intros i Li. do 6 (destruct i as [|i]; [cbn [Frustum_GetPlane]; eexists; (split; [|eassumption]); cbn; tauto|]). exfalso; Lia.lia.
    + intros n [<-|[<-|[<-|[]]]].
      * split; [exact FF|]. exists 1%nat. split; [Lia.lia|exact FP].
      * split; [exact UU|]. exists 4%nat. split; [Lia.lia|exact NT].
      * split; [unfold unitv; rewrite ES, dot_scale_l, dot_scale_r, RR; lra|]. exists 3%nat. split; [Lia.lia|exact PR].
    + intros i Li. destruct (E1 i Li) as (m & bit & M & B & T & ->). cbn [seg_a seg_b]. rewrite (ED m bit M B T). destruct bit as [|[|[|bit]]]; [exists (ffront f)|exists (fup f)|exists (cross (ffront f) (fup f))|exfalso; Lia.lia]; (split; [cbn; tauto|]); [apply DF|apply DU|eapply parallel_trans; [apply DR|exact PRX]].
    + intros d [<-|[<-|[<-|[]]]].
      * destruct (E2 0%nat 0%nat ltac:(Lia.lia) ltac:(Lia.lia) eq_refl) as (i & Li & E). exists i. split; [exact Li|]. rewrite E. cbn [seg_a seg_b]. rewrite (ED 0%nat 0%nat ltac:(Lia.lia) ltac:(Lia.lia) eq_refl). apply DF.
      * destruct (E2 0%nat 1%nat ltac:(Lia.lia) ltac:(Lia.lia) eq_refl) as (i & Li & E). exists i. split; [exact Li|]. rewrite E. cbn [seg_a seg_b]. rewrite (ED 0%nat 1%nat ltac:(Lia.lia) ltac:(Lia.lia) eq_refl). apply DU.
      * destruct (E2 0%nat 2%nat ltac:(Lia.lia) ltac:(Lia.lia) eq_refl) as (i & Li & E). exists i. split; [exact Li|]. rewrite E. cbn [seg_a seg_b]. rewrite (ED 0%nat 2%nat ltac:(Lia.lia) ltac:(Lia.lia) eq_refl). eapply parallel_trans; [apply DR|exact PRX].
    + split; reflexivity.
  - assert (QN : forall i m bit, (m < 8)%nat -> (bit < 3)%nat -> Nat.testbit m bit = false -> Frustum_Edge f i = Seg (Frustum_CornerPoint f m) (Frustum_CornerPoint f (m + 2 ^ bit)) -> minus (seg_b (Frustum_Edge f i)) (seg_a (Frustum_Edge f i)) = minus (Frustum_CornerPoint f (m + 2 ^ bit)) (Frustum_CornerPoint f m)) by (intros i m bit _ _ _ ->; reflexivity).
    unfold NearPlanePos, FarPlanePos. rewrite !planePos_R. change (@vsub R Num_R) with minus. rsimpl.
    set (d0 := minus _ _). set (d1 := minus (view_point f (- (1) * half_w f (fnear f)) (- (1) * half_h f (fnear f)) (fnear f)) (view_point f (- (1) * half_w f (fnear f)) (1 * half_h f (fnear f)) (fnear f))).
    set (d2 := minus (view_point f (- (1) * half_w f (ffar f)) (- (1) * half_h f (ffar f)) (ffar f)) _). set (d3 := minus (view_point f (1 * half_w f (ffar f)) (- (1) * half_h f (ffar f)) (ffar f)) _).
    set (d4 := minus (view_point f (- (1) * half_w f (ffar f)) (1 * half_h f (ffar f)) (ffar f)) _). set (d5 := minus (view_point f (1 * half_w f (ffar f)) (1 * half_h f (ffar f)) (ffar f)) _).
    assert (ECO : forall x y z x' y' z', corner f x y z = view_point f x' y' z' <-> view_point f (sgn x * half_w f (fdist f z)) (sgn y * half_h f (fdist f z)) (fdist f z) = view_point f x' y' z') by reflexivity.
    assert (P0 : parallel (fright f) d0) by (apply parallel_sym; exists (- 2 * half_w f (fnear f)); split; [lra|]; unfold d0, view_point; apply vec_ext; unfold plus, minus, scale; cbn [vx vy vz]; ring).
    assert (P1 : parallel (fup f) d1) by (apply parallel_sym; exists (- 2 * half_h f (fnear f)); split; [lra|]; unfold d1, view_point; apply vec_ext; unfold plus, minus, scale; cbn [vx vy vz]; ring).
    assert (CE : forall x y, In (minus (corner f x y true) (corner f x y false)) [d0; d1; d2; d3; d4; d5]) by (intros x y; unfold corner, d2, d3, d4, d5; replace (- (1)) with (-1) by ring; destruct x, y; cbn [sgn fdist]; cbn; tauto).
    assert (CD : forall d, In d [d2; d3; d4; d5] -> exists m, (m < 8)%nat /\ Nat.testbit m 0 = false /\ d = minus (corner f (Nat.testbit m 2) (Nat.testbit m 1) true) (corner f (Nat.testbit m 2) (Nat.testbit m 1) false)).
    { intros d [<-|[<-|[<-|[<-|[]]]]]; [exists 0%nat|exists 4%nat|exists 2%nat|exists 6%nat]; (split; [Lia.lia|]; split; [reflexivity|]); unfold corner, d2, d3, d4, d5; replace (- (1)) with (-1) by ring; reflexivity. }
    split; [|split; [|split; [|split]]].
    + intros i Li. do 6 (destruct i as [|i]; [cbn [Frustum_GetPlane]; first [exists (ffront f); (split; [now left|eassumption])|eexists; (split; [|apply parallel_refl]); cbn; tauto]|]). exfalso; Lia.lia.
    + intros n [<-|[<-|[<-|[<-|[<-|[]]]]]]; [split; [exact FF|]; exists 1%nat; split; [Lia.lia|exact FP]|split; [apply (UN 2%nat); Lia.lia|exists 2%nat]|split; [apply (UN 3%nat); Lia.lia|exists 3%nat]|split; [apply (UN 4%nat); Lia.lia|exists 4%nat]|split; [apply (UN 5%nat); Lia.lia|exists 5%nat]]; (split; [Lia.lia|apply parallel_refl]).
    + intros i Li. destruct (E1 i Li) as (m & bit & M & B & T & ->). cbn [seg_a seg_b]. rewrite (ED m bit M B T). destruct bit as [|[|[|bit]]]; [|exists d1|exists d0|exfalso; Lia.lia].
      * eexists. split; [apply CE|apply parallel_refl].
      * split; [cbn; tauto|]. eapply parallel_trans; [apply DU|exact P1].
      * split; [cbn; tauto|]. eapply parallel_trans; [apply DR|exact P0].
    + intros d D. assert (D' : d = d0 \/ d = d1 \/ In d [d2; d3; d4; d5]) by (destruct D as [<-|[<-|D]]; auto). destruct D' as [ -> |[ -> |D']].
      * destruct (E2 0%nat 2%nat ltac:(Lia.lia) ltac:(Lia.lia) eq_refl) as (i & Li & E). exists i. split; [exact Li|]. rewrite E. cbn [seg_a seg_b]. rewrite (ED 0%nat 2%nat ltac:(Lia.lia) ltac:(Lia.lia) eq_refl). eapply parallel_trans; [apply DR|exact P0].
      * destruct (E2 0%nat 1%nat ltac:(Lia.lia) ltac:(Lia.lia) eq_refl) as (i & Li & E). exists i. split; [exact Li|]. rewrite E. cbn [seg_a seg_b]. rewrite (ED 0%nat 1%nat ltac:(Lia.lia) ltac:(Lia.lia) eq_refl). eapply parallel_trans; [apply DU|exact P1].
      * apply CD in D'. destruct D' as (m & M & T & ->). destruct (E2 m 0%nat M ltac:(Lia.lia) T) as (i & Li & E). exists i. split; [exact Li|]. rewrite E. cbn [seg_a seg_b]. rewrite (ED m 0%nat M ltac:(Lia.lia) T). apply parallel_refl.
    + split; reflexivity.
Qed.
Print Assumptions C84_directions.
