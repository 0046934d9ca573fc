(** C84: the geometry of frustums. *)
From Coq Require Import Reals Psatz List Bool.
From Verif Require Import Num NumR ScalarModel ScalarProofs Vec3Model GeoTypes GeoSpec GeoLemmas Vec3Props AabbModel AabbSpec AabbProofs AabbProps AabbProps2 MatModel MatSpec MatProofs MatProofs2 LineModel LineSpec LineProofs
  RotModel RotSpec RotProofs PlaneModel PlaneSpec PlaneProps SphereSpec ObbModel ObbProps ObbProps4 Vec2Model FrustumModel FrustumSpec.
Import ListNotations.
Open Scope R_scope.
Ltac Zify.zify_post_hook ::= idtac.

(** ** The frame of a frustum *)
Definition eye (f : frustum R) : obb R := Obb (fpos f) origin (fright f) (fup f) (ffront f).
Lemma WorldRight_R f : WorldRight f = fright f.
Proof. unfold WorldRight, rightHanded, fright. destruct (fhand f); reflexivity. Qed.
Lemma xprod_cross a b : xprod a b = cross a b. Proof. reflexivity. Qed.
Lemma eye_framed f : unitv (ffront f) -> unitv (fup f) -> orth (ffront f) (fup f) -> framed (eye f).
Proof.
  intros U1 U2 O. unfold framed, eye. cbn [oaxis0 oaxis1 oaxis2]. assert (X : forall a b, unitv a -> unitv b -> orth a b -> unitv (xprod a b) /\ orth (xprod a b) a /\ orth (xprod a b) b).
  { intros a b A B AB. rewrite xprod_cross. unfold unitv, orth in *. rewrite cross_sq, A, B, AB, (dot_comm _ a), (dot_comm _ b), cross_dot_l, cross_dot_r. lra. }
  assert (O' : orth (fup f) (ffront f)) by (unfold orth in *; rewrite dot_comm; exact O). destruct (X _ _ U1 U2 O) as (A1 & A2 & A3), (X _ _ U2 U1 O') as (B1 & B2 & B3). unfold fright. destruct (fhand f); tauto.
Qed.
Lemma ok_framed f : frustum_ok f -> framed (eye f).
Proof. intros (A & B & C & _). now apply eye_framed. Qed.
Lemma view_at f x y z : view_point f x y z = at_ (eye f) x y z. Proof. reflexivity. Qed.
Lemma view_crd f p : view_x f p = crd0 (eye f) p /\ view_y f p = crd1 (eye f) p /\ depth f p = crd2 (eye f) p. Proof. repeat split. Qed.
Lemma view_of_point f x y z : frustum_ok f -> view_x f (view_point f x y z) = x /\ view_y f (view_point f x y z) = y /\ depth f (view_point f x y z) = z.
Proof. intros K. apply (crd_at (eye f)). now apply ok_framed. Qed.
Lemma point_of_view f p : frustum_ok f -> view_point f (view_x f p) (view_y f p) (depth f p) = p.
Proof. intros K. apply (at_crd (eye f)). now apply ok_framed. Qed.
Lemma in_frustum_point f x y z : frustum_ok f -> (in_frustum f (view_point f x y z) <-> fnear f <= z <= ffar f /\ - half_w f z <= x <= half_w f z /\ - half_h f z <= y <= half_h f z).
Proof. intros K. unfold in_frustum. destruct (view_of_point f x y z K) as (-> & -> & ->). tauto. Qed.
Lemma Tan_R (x : R) : Tan (nmul x nhalf) = tan (x / 2).
Proof. replace (nmul x nhalf) with (x / 2) by (rsimpl; field). reflexivity. Qed.
Lemma tan_half x : 0 < x < PI -> 0 < tan (x / 2).
Proof. intros X. apply tan_gt_0; lra. Qed.
Lemma half_affine f : frustum_ok f -> exists a b, 0 <= a /\ 0 <= b /\ 0 < a + b /\ forall z, half_w f z = a + b * z.
Proof.
  intros (_ & _ & _ & N & K). unfold half_w. destruct (ftype f); [contradiction| |].
  - exists (fhw f / 2), 0. repeat split; try lra. intros. ring.
  - exists 0, (tan (fhw f / 2)). pose proof (tan_half _ (proj1 K)). repeat split; try lra. intros. ring.
Qed.
Lemma half_affine_h f : frustum_ok f -> exists a b, 0 <= a /\ 0 <= b /\ 0 < a + b /\ forall z, half_h f z = a + b * z.
Proof.
  intros (_ & _ & _ & N & K). unfold half_h. destruct (ftype f); [contradiction| |].
  - exists (fvh f / 2), 0. repeat split; try lra. intros. ring.
  - exists 0, (tan (fvh f / 2)). pose proof (tan_half _ (proj2 K)). repeat split; try lra. intros. ring.
Qed.
Lemma half_pos f z : frustum_ok f -> 0 < z -> 0 < half_w f z /\ 0 < half_h f z.
Proof. intros K Z. destruct (half_affine f K) as (a & b & A & B & AB & E), (half_affine_h f K) as (c & d & C & D & CD & E'). rewrite E, E'. split; nra. Qed.
(** NearPlanePos and FarPlanePos. *)
Lemma planePos_R f (d x y : R) : planePos f d x y = view_point f (x * half_w f d) (y * half_h f d) d.
Proof.
  unfold planePos, persp, half_w, half_h, view_point. rewrite !Tan_R, WorldRight_R. destruct (ftype f); apply vec_ext; unfold plus, scale; vunf; try ring; rsimpl; field.
Qed.
(** ** Planes *)
Lemma Normalized_scale (v : pt) : 1 / 1000000 < norm v -> exists k, 0 < k /\ Normalized v = scale k v /\ unitv (Normalized v).
Proof.
  intros N. exists (/ norm v). split; [apply Rinv_0_lt_compat; lra|]. rewrite (Normalized_R v N). split; [reflexivity|]. unfold unitv. rewrite dot_scale_l, dot_scale_r, <- norm_sq. field. lra.
Qed.
Lemma ScaledToLength_unit (v : pt) len : unitv v -> ScaledToLength v len = scale len v.
Proof.
  intros U. unfold ScaledToLength, ScaleToLength. change (LengthSq v) with (dot v v). rewrite U. rsimpl. rewrite (proj2 (Rltb_false _ _)) by lra. cbn [fst]. rewrite sqrt_1. apply vec_ext; unfold scale; cbn; field.
Qed.
Lemma Plane_Set_height (q n p : pt) : Plane_SignedDistance (Plane_Set q n) p = dot n (minus p q).
Proof. unfold Plane_SignedDistance, Plane_Set. cbn [pnormal pd]. toG. rewrite dot_minus_r, (dot_comm q n). reflexivity. Qed.
(** Each plane's signed distance has the sign of a linear function of the view coordinates, and the normal is a unit vector. *)
Definition halfspace (f : frustum R) (P : plane R) (g : pt -> R) : Prop := unitv (pnormal P) /\ exists k, 0 < k /\ forall p, Plane_SignedDistance P p = k * g p.
Lemma dot_right_front f : frustum_ok f -> dot (fright f) (ffront f) = 0 /\ dot (fright f) (fup f) = 0 /\ dot (fup f) (ffront f) = 0 /\ dot (fright f) (fright f) = 1 /\ dot (fup f) (fup f) = 1 /\ dot (ffront f) (ffront f) = 1.
Proof. intros K. destruct (ok_framed f K) as (A & B & C & D & E & F). unfold eye, unitv, orth in *. cbn in *. tauto. Qed.
Lemma side_halfspace f (N : pt) (s t : R) (e : pt) : frustum_ok f -> N = plus (scale s e) (scale (- t) (ffront f)) -> s * s = 1 -> dot e e = 1 -> dot e (ffront f) = 0 ->
  halfspace f (Plane_Set (fpos f) (Normalized N)) (fun p => s * dot (minus p (fpos f)) e - t * depth f p).
Proof.
  intros K EN S U O. destruct (dot_right_front f K) as (_ & _ & _ & _ & _ & FF). assert (L : dot N N = 1 + t * t).
  { rewrite EN, dot_plus_l, !dot_plus_r, !dot_scale_l, !dot_scale_r, U, (dot_comm (ffront f) e), O, FF. nra. }
  destruct (Normalized_scale N) as (k & Kp & E & UN).
  { assert (1 <= norm N); [|lra]. unfold norm. rewrite L. apply Rle_trans with (sqrt 1); [rewrite sqrt_1; lra|]. apply sqrt_le_1_alt. pose proof (Rle_0_sqr t). unfold Rsqr in *. lra. }
  split; [exact UN|]. exists k. split; [exact Kp|]. intros p. rewrite Plane_Set_height, E, dot_scale_l, EN, dot_plus_l, !dot_scale_l. unfold depth. rewrite (dot_comm e), (dot_comm (ffront f)). ring.
Qed.
Lemma cross_cross_r a b c : cross a (cross b c) = minus (scale (dot a c) b) (scale (dot a b) c).
Proof. unfold cross. gunf. apply vec_ext; cbn [vx vy vz]; ring. Qed.
Lemma cross_cross_l a b c : cross (cross a b) c = minus (scale (dot a c) b) (scale (dot b c) a).
Proof. unfold cross. gunf. apply vec_ext; cbn [vx vy vz]; ring. Qed.
Lemma cross_plus_r a b c : cross a (plus b c) = plus (cross a b) (cross a c). Proof. unfold cross, plus. apply vec_ext; cbn [vx vy vz]; ring. Qed.
Lemma cross_plus_l a b c : cross (plus a b) c = plus (cross a c) (cross b c). Proof. unfold cross, plus. apply vec_ext; cbn [vx vy vz]; ring. Qed.
Lemma cross_scale_r k a b : cross a (scale k b) = scale k (cross a b). Proof. unfold cross, scale. apply vec_ext; cbn [vx vy vz]; ring. Qed.
Lemma cross_scale_l k a b : cross (scale k a) b = scale k (cross a b). Proof. unfold cross, scale. apply vec_ext; cbn [vx vy vz]; ring. Qed.
Lemma cross_anti a b : cross a b = scale (-1) (cross b a). Proof. unfold cross, scale. apply vec_ext; cbn [vx vy vz]; ring. Qed.
Lemma cross_self a : cross a a = origin. Proof. unfold cross, origin. apply vec_ext; cbn [vx vy vz]; ring. Qed.
Lemma cross_up_right f : frustum_ok f -> forall s t : R,
  (if rightHanded f then cross (fup f) (plus (ffront f) (scale t (fright f))) else cross (plus (ffront f) (scale t (fright f))) (fup f)) = plus (scale (-1) (fright f)) (scale t (ffront f)) /\
  (if rightHanded f then cross (plus (ffront f) (scale t (fright f))) (fup f) else cross (fup f) (plus (ffront f) (scale t (fright f)))) = plus (scale 1 (fright f)) (scale (- t) (ffront f)) /\
  (if rightHanded f then cross (scale s (fright f)) (plus (ffront f) (scale t (fup f))) else cross (plus (ffront f) (scale t (fup f))) (scale s (fright f))) = plus (scale s (fup f)) (scale (- (s * t)) (ffront f)).
Proof.
  intros K s t. destruct K as (U1 & U2 & O & _). unfold rightHanded, fright. set (a := ffront f) in *. set (u := fup f) in *. clearbody a u. unfold unitv, orth in *. assert (O' : dot u a = 0) by (rewrite dot_comm; exact O).
  change xprod with cross. destruct (fhand f); (split; [|split]);
    rewrite ?cross_plus_r, ?cross_plus_l, ?cross_scale_r, ?cross_scale_l, ?cross_plus_r, ?cross_plus_l, ?cross_scale_r, ?cross_scale_l, ?cross_cross_l, ?cross_cross_r, ?U1, ?U2, ?O, ?O', ?(cross_anti u a);
    apply vec_ext; unfold plus, minus, scale; cbn [vx vy vz]; ring.
Qed.
Lemma frustum_planes f : frustum_ok f ->
  halfspace f (NearPlane f) (fun p => fnear f - depth f p) /\ halfspace f (FarPlane f) (fun p => depth f p - ffar f) /\
  halfspace f (LeftPlane f) (fun p => - view_x f p - half_w f (depth f p)) /\ halfspace f (RightPlane f) (fun p => view_x f p - half_w f (depth f p)) /\
  halfspace f (TopPlane f) (fun p => view_y f p - half_h f (depth f p)) /\ halfspace f (BottomPlane f) (fun p => - view_y f p - half_h f (depth f p)).
Proof.
  intros K. destruct (dot_right_front f K) as (RF & RU & UF & RR & UU & FF).
  assert (PS : forall q n, unitv n -> halfspace f (Plane_Set q n) (fun p => dot n (minus p q))).
  { intros q n U. split; [exact U|]. exists 1. split; [lra|]. intros p. rewrite Plane_Set_height. ring. }
  assert (EXT : forall P g g', (forall p, g p = g' p) -> halfspace f P g -> halfspace f P g').
  { intros P g g' E (U & k & Kp & H). split; [exact U|]. exists k. split; [exact Kp|]. intros p. rewrite H, E. reflexivity. }
  assert (DV : forall v x y z p, dot v (minus p (view_point f x y z)) = dot v (minus p (fpos f)) - x * dot v (fright f) - y * dot v (fup f) - z * dot v (ffront f)).
  { intros. unfold view_point. rewrite !dot_minus_r, !dot_plus_r, !dot_scale_r. ring. }
  split; [|split].
  - unfold NearPlane. change (@vneg R Num_R (ffront f)) with (V3 (- vx (ffront f)) (- vy (ffront f)) (- vz (ffront f))). set (m := V3 _ _ _). assert (EM : m = scale (-1) (ffront f)) by (unfold m, scale; apply vec_ext; cbn; ring). rewrite EM.
    eapply EXT; [|apply PS; unfold unitv; rewrite dot_scale_l, dot_scale_r, FF; ring]. intros p. cbn beta. replace (vadd (fpos f) (vmuls (ffront f) (fnear f))) with (view_point f 0 0 (fnear f)) by (unfold view_point, plus, scale; apply vec_ext; vunf; ring).
    rewrite DV, !dot_scale_l, FF. unfold depth. rewrite (dot_comm (ffront f)), (dot_comm (ffront f) (fright f)), (dot_comm (ffront f) (fup f)), RF, UF. ring.
  - unfold FarPlane. eapply EXT; [|apply PS; exact FF]. intros p. cbn beta. replace (vadd (fpos f) (vmuls (ffront f) (ffar f))) with (view_point f 0 0 (ffar f)) by (unfold view_point, plus, scale; apply vec_ext; vunf; ring).
    rewrite DV, FF. unfold depth. rewrite (dot_comm (ffront f)), (dot_comm (ffront f) (fright f)), (dot_comm (ffront f) (fup f)), RF, UF. ring.
  - unfold LeftPlane, RightPlane, TopPlane, BottomPlane, NearPlanePos. rewrite !Tan_R, !WorldRight_R, !planePos_R. unfold persp, half_w, half_h.
    assert (EN : forall v : pt, vneg v = scale (-1) v) by (intros; unfold scale; apply vec_ext; vunf; ring). rewrite !EN.
    pose proof K as (U1 & U2 & O & N & L). assert (NU : forall v, unitv v -> unitv (scale (-1) v)) by (intros v V; unfold unitv in *; rewrite dot_scale_l, dot_scale_r, V; lra).
    destruct (ftype f) eqn:TY; [contradiction| |].
    + rewrite (Normalized_unit (scale (-1) (fright f))) by (apply NU, RR). rewrite (Normalized_unit (fright f)) by exact RR.
      split; [|split; [|split]]; (eapply EXT; [|apply PS; first [exact RR|exact UU|apply NU; exact RR|apply NU; exact UU]]); intros p; cbn beta; rewrite DV; rewrite ?dot_scale_l, ?RR, ?UU, ?RF, ?UF, ?RU, ?(dot_comm (fup f) (fright f)), ?RU; unfold view_x, view_y; rewrite !(dot_comm (minus p (fpos f))); rsimpl; lra.
    + pose proof (fun s t => cross_up_right f K s t) as CC. assert (T1 := tan_half _ (proj1 L)).
      rewrite (ScaledToLength_unit (scale (-1) (fright f))) by (apply NU, RR). rewrite (ScaledToLength_unit (fright f)) by exact RR.
      change (@vadd R Num_R) with plus. change (@smulv R Num_R) with (fun k v => scale k v) || idtac.
      assert (ES : forall k (v : pt), smulv k v = scale k v) by (intros; unfold scale; apply vec_ext; vunf; ring). rewrite !ES.
      assert (EM : forall a b : pt, vsub a b = plus a (scale (-1) b)) by (intros; unfold plus, scale; apply vec_ext; vunf; ring). rewrite EM, !scale_scale.
      change (@Cross R Num_R) with cross. set (t := tan (fhw f / 2)) in *. set (w := tan (fvh f / 2)) in *.
      split; [|split; [|split]].
      * rewrite (proj1 (CC 1 (t * -1))). eapply EXT; [|apply (side_halfspace f _ (-1) t (fright f) K)]; try assumption; try lra.
        -- intros p. cbn beta. unfold view_x. ring.
        -- apply vec_ext; unfold plus, scale; cbn [vx vy vz]; ring.
      * rewrite (proj1 (proj2 (CC 1 t))). eapply EXT; [|apply (side_halfspace f _ 1 t (fright f) K)]; try assumption; try lra; try reflexivity.
        intros p. cbn beta. unfold view_x. ring.
      * pose proof (proj2 (proj2 (CC 1 w))) as E. rewrite scale_1 in E. rewrite E. eapply EXT; [|apply (side_halfspace f _ 1 w (fup f) K)]; try assumption; try lra.
        -- intros p. cbn beta. unfold view_y. ring.
        -- apply vec_ext; unfold plus, scale; cbn [vx vy vz]; ring.
      * pose proof (proj2 (proj2 (CC (-1) (-1 * w)))) as E. rewrite E. eapply EXT; [|apply (side_halfspace f _ (-1) w (fup f) K)]; try assumption; try lra.
        -- intros p. cbn beta. unfold view_y. ring.
        -- apply vec_ext; unfold plus, scale; cbn [vx vy vz]; ring.
Qed.
Lemma pos_le k x : 0 < k -> (k * x <= 0 <-> x <= 0). Proof. intros. split; intros; nra. Qed.
Lemma pos_eq k x : 0 < k -> (k * x = 0 <-> x = 0). Proof. intros. split; intros; nra. Qed.
(** The face planes: unit normals, the right plane for each face, and inside is the negative side of all of them. *)
Theorem C84_planes (f : frustum R) : frustum_ok f ->
  (forall i, (i < 6)%nat -> unitv (pnormal (Frustum_GetPlane f i))) /\
  (forall p, in_frustum f p <-> forall i, (i < 6)%nat -> height (Frustum_GetPlane f i) p <= 0) /\
  (forall p, on_plane (NearPlane f) p <-> depth f p = fnear f) /\ (forall p, on_plane (FarPlane f) p <-> depth f p = ffar f) /\
  (forall p, on_plane (LeftPlane f) p <-> view_x f p = - half_w f (depth f p)) /\ (forall p, on_plane (RightPlane f) p <-> view_x f p = half_w f (depth f p)) /\
  (forall p, on_plane (TopPlane f) p <-> view_y f p = half_h f (depth f p)) /\ (forall p, on_plane (BottomPlane f) p <-> view_y f p = - half_h f (depth f p)) /\
  Frustum_GetPlanes f = [NearPlane f; FarPlane f; LeftPlane f; RightPlane f; TopPlane f; BottomPlane f] /\
  (forall p, PBVolume_Contains (Frustum_ToPBVolume f) p = true <-> in_frustum f p).
Proof.
  intros K. pose proof (frustum_planes f K) as ((U0 & k0 & P0 & H0) & (U1 & k1 & P1 & H1) & (U2 & k2 & P2 & H2) & (U3 & k3 & P3 & H3) & (U4 & k4 & P4 & H4) & (U5 & k5 & P5 & H5)).
  assert (HS : forall P p, Plane_SignedDistance P p = height P p) by (intros; apply SD_R).
  assert (ON : forall P p, on_plane P p <-> height P p = 0) by (intros; unfold on_plane, height; split; intros; lra).
  assert (IN : forall p, in_frustum f p <-> forall i, (i < 6)%nat -> height (Frustum_GetPlane f i) p <= 0).
  { intros p. assert (ALL : (forall i, (i < 6)%nat -> height (Frustum_GetPlane f i) p <= 0) <-> height (NearPlane f) p <= 0 /\ height (FarPlane f) p <= 0 /\ height (LeftPlane f) p <= 0 /\ height (RightPlane f) p <= 0 /\ height (TopPlane f) p <= 0 /\ height (BottomPlane f) p <= 0).
    { split.
      - intros A. repeat split; [apply (A 0%nat)|apply (A 1%nat)|apply (A 2%nat)|apply (A 3%nat)|apply (A 4%nat)|apply (A 5%nat)]; Lia.lia.
      - intros A i L. do 6 (destruct i as [|i]; [tauto|]). exfalso; Lia.lia. }
    rewrite ALL. rewrite <- !HS, H0, H1, H2, H3, H4, H5, !pos_le by assumption. unfold in_frustum. lra. }
  split; [|split; [exact IN|]].
  { intros i L. do 6 (destruct i as [|i]; [assumption|]). exfalso; Lia.lia. }
  do 6 (split; [intros p; rewrite ON, <- HS, ?H0, ?H1, ?H2, ?H3, ?H4, ?H5, pos_eq by assumption; lra|]).
  split; [reflexivity|]. intros p. rewrite IN. unfold PBVolume_Contains, Frustum_ToPBVolume. rewrite forallb_forall. split.
  - intros A i L. assert (I : In (Frustum_GetPlane f i) [NearPlane f; LeftPlane f; RightPlane f; TopPlane f; BottomPlane f; FarPlane f]) by (do 6 (destruct i as [|i]; [cbn; tauto|]); exfalso; Lia.lia).
    apply A in I. rewrite negb_true_iff in I. change (Rltb 0 (Plane_SignedDistance (Frustum_GetPlane f i) p) = false) in I. rewrite HS in I. apply Rltb_false in I. lra.
  - intros A P I. rewrite negb_true_iff. change (Rltb 0 (Plane_SignedDistance P p) = false). rewrite HS. apply Rltb_false.
    assert (E : exists i, (i < 6)%nat /\ P = Frustum_GetPlane f i).
    { destruct I as [<-|[<-|[<-|[<-|[<-|[<-|[]]]]]]]; [exists 0%nat|exists 2%nat|exists 3%nat|exists 4%nat|exists 5%nat|exists 1%nat]; (split; [Lia.lia|reflexivity]). }
    destruct E as (i & L & ->). specialize (A i L). lra.
Qed.
Print Assumptions C84_planes.
