(** Capsules, continued (C50): points by parameters, enclosing boxes, intersections, transforms, volume. *)
From Coq Require Import Reals Psatz List Bool.
From Verif Require Import Num NumR ScalarModel ScalarProofs Vec3Model GeoTypes GeoSpec GeoLemmas Vec3Props AabbModel AabbSpec AabbProofs AabbProps MatModel MatSpec MatProofs MatProofs2 LineModel LineSpec LineProofs LineProofs2 LineProps
  RotModel RotSpec RotProofs RotProofs3 PlaneModel PlaneSpec PlaneProps PlaneProps2 PlaneProps3 PlaneProps4 SphereModel SphereSpec SphereProps SphereProps2 TriangleModel TriangleSpec TriangleProps TriangleProps2 TriangleProps4 TriangleProps5 CircleModel CircleProps CapsuleModel CapsuleProps CapsuleProps2.
Import ListNotations.
Open Scope R_scope.
Ltac Zify.zify_post_hook ::= idtac.

(** ** Points by height, angle and distance *)
Theorem C50_point_inside (c : capsule R) (h a d : R) : long_axis c -> good_normal (Capsule_UpDirection c) -> 0 <= cap_r c -> 0 <= h <= 1 -> 0 <= d <= 1 ->
  in_capsule c (Capsule_PointInside c h a d) /\ dot (Capsule_UpDirection c) (minus (Capsule_PointInside c h a d) (Capsule_Bottom c)) = h * Capsule_Height c.
Proof.
  intros L G Rc H D. apply (C50_cross_section c h _ L Rc H). destruct (section_R c h L) as (_ & En & Er). unfold Capsule_PointInside.
  destruct (C76_points (Capsule_CrossSection c h)) as (_ & _ & P & _).
  - rewrite En. exact G.
  - rewrite Er. destruct (Rltb _ _); [apply sqrt_pos|]. destruct (Rltb _ _); [exact Rc|apply sqrt_pos].
  - apply (P _ d D).
Qed.
Print Assumptions C50_point_inside.
(** Every point of the capsule is reached. *)
Theorem C50_point_inside_onto (c : capsule R) (p : pt) : long_axis c -> good_normal (Capsule_UpDirection c) -> 0 <= cap_r c -> in_capsule c p ->
  exists h a d, 0 <= h <= 1 /\ 0 <= d <= 1 /\ Capsule_PointInside c h a d = p.
Proof.
  intros L G Rc I. destruct (C50_height c L Rc) as (U & _ & _ & _ & _ & B & HD & _). pose proof (B p I) as Bp. assert (Hh : Capsule_Height c = dist (seg_a (cap_l c)) (seg_b (cap_l c)) + 2 * cap_r c) by reflexivity. unfold long_axis in L.
  assert (Ht : dot (Capsule_UpDirection c) (Capsule_Top c) = dot (Capsule_UpDirection c) (Capsule_Bottom c) + Capsule_Height c).
  { destruct (up_R c L) as [U' E]. unfold Capsule_Top, Capsule_Bottom. change (@vadd R Num_R) with plus. change (@vsub R Num_R) with minus. rewrite vmuls_R. unfold unitv in U. rewrite dot_plus_r, dot_minus_r, dot_scale_r, U, Hh.
    pose proof (dot_minus_r (seg_b (cap_l c)) (seg_a (cap_l c)) (Capsule_UpDirection c)) as X. rewrite E, dot_scale_r, U in X. lra. }
  set (hh := dot (Capsule_UpDirection c) (minus p (Capsule_Bottom c))). set (h := hh / Capsule_Height c). assert (Pos : 0 < Capsule_Height c) by lra. assert (Eh : h * Capsule_Height c = hh) by (unfold h; field; lra).
  assert (Rh : 0 <= h <= 1). { unfold hh in *. rewrite dot_minus_r in Eh. split; apply (Rmult_le_reg_r (Capsule_Height c)); lra. }
  assert (O : on_disc (Capsule_CrossSection c h) p) by (apply (C50_cross_section c h p L Rc Rh); split; [exact I|symmetry; exact Eh]).
  destruct (section_R c h L) as (_ & En & Er). destruct (C76_points (Capsule_CrossSection c h)) as (_ & _ & _ & S).
  - rewrite En. exact G.
  - rewrite Er. destruct (Rltb _ _); [apply sqrt_pos|]. destruct (Rltb _ _); [exact Rc|apply sqrt_pos].
  - destruct (S p O) as (a & d & _ & D & E). exists h, (a / (2 * PI)), d. split; [exact Rh|]. split; [exact D|]. unfold Capsule_PointInside. rewrite <- E. f_equal. change (@n2 R _) with 2. change (@npi R _ _) with PI. rsimpl. field. pose proof PI_RGT_0. lra.
Qed.
Print Assumptions C50_point_inside_onto.
(** With distance 1 the point is on the surface: exactly r away from the axis. *)
Theorem C50_surface (c : capsule R) (f1 f2 : R) : long_axis c -> good_normal (Capsule_UpDirection c) -> 0 <= cap_r c -> 0 <= f1 <= 1 ->
  distance_is (on_segment (cap_l c)) (single (Capsule_RandomPointOnSurface c f1 f2)) (cap_r c).
Proof.
  intros L G Rc H. unfold Capsule_RandomPointOnSurface. change (@n1 R _) with 1. destruct (C50_point_inside c f1 f2 1 L G Rc H ltac:(lra)) as [I Hd]. set (p := Capsule_PointInside c f1 f2 1) in *.
  destruct (section_R c f1 L) as (Ep & En & Er). assert (Dd : dist (circ_pos (Capsule_CrossSection c f1)) p = circ_r (Capsule_CrossSection c f1)).
  { destruct (C76_points (Capsule_CrossSection c f1)) as (_ & _ & P & _).
    - rewrite En. exact G.
    - rewrite Er. destruct (Rltb _ _); [apply sqrt_pos|]. destruct (Rltb _ _); [exact Rc|apply sqrt_pos].
    - unfold p, Capsule_PointInside. rewrite (proj2 (P _ 1 ltac:(lra))). ring. }
  pose proof (in_capsule_coord c p L Rc) as IC. cbv zeta in IC. pose proof (proj1 IC I) as Q. clear IC. destruct (up_R c L) as [U E]. cbv zeta in E.
  assert (Hh : Capsule_Height c = dist (seg_a (cap_l c)) (seg_b (cap_l c)) + 2 * cap_r c) by reflexivity. pose proof L as L'. unfold long_axis in L'.
  assert (Bt : dot (Capsule_UpDirection c) (minus p (Capsule_Bottom c)) = dot (Capsule_UpDirection c) (minus p (seg_a (cap_l c))) + cap_r c).
  { unfold Capsule_Bottom. change (@vsub R Num_R) with minus. rewrite vmuls_R. unfold unitv in U. rewrite !dot_minus_r, dot_scale_r, U. ring. }
  rewrite Bt in Hd. clear Bt. rewrite Ep, Er in Dd. clear Ep En Er. set (Lg := dist (seg_a (cap_l c)) (seg_b (cap_l c))) in *. set (up := Capsule_UpDirection c) in *. set (w := minus p (seg_a (cap_l c))) in *. set (t := dot up w) in *.
  set (h := f1 * Capsule_Height c) in *. assert (Hr : 0 <= h <= Lg + 2 * cap_r c) by (unfold h; rewrite Hh; nra).
  assert (D : forall x, dist (along (seg_a (cap_l c)) up x) p * dist (along (seg_a (cap_l c)) up x) p = dot w w - t * t + (t - x) * (t - x)).
  { intros x. rewrite dist_sym. unfold dist. rewrite norm_sq. replace (minus p (along (seg_a (cap_l c)) up x)) with (minus w (scale x up)) by (unfold w, along; gunf; apply vec_ext; cbn [vx vy vz]; ring).
    unfold unitv in U. rewrite dot_minus_l, !dot_minus_r, !dot_scale_l, !dot_scale_r, (dot_comm w up), U. unfold t. ring. }
  pose proof (D (h - cap_r c)) as D0. rewrite Dd in D0. replace (t - (h - cap_r c)) with 0 in D0 by lra. set (k := Rmax 0 (Rmin t Lg)) in *.
  assert (K : 0 <= k <= Lg) by (unfold k, Rmax, Rmin; repeat destruct Rle_dec; lra).
  assert (Eq : dot w w - t * t + (t - k) * (t - k) = cap_r c * cap_r c).
  { assert (Et : t = h - cap_r c) by lra. clear - D0 Et Hr L' Rc. unfold k. clear k. set (r := cap_r c) in *. clearbody r h Lg t. set (ww := dot w w) in *. clearbody ww. clear w.
    destruct (Rltb_spec h r) as [A|A]; [|destruct (Rltb_spec h (Lg + r)) as [B|B]].
    - rewrite sqrt_sqrt in D0 by nra. replace (Rmax 0 (Rmin t Lg)) with 0 by (unfold Rmax, Rmin; repeat destruct Rle_dec; lra). subst t. lra.
    - replace (Rmax 0 (Rmin t Lg)) with t by (unfold Rmax, Rmin; repeat destruct Rle_dec; lra). lra.
    - rewrite sqrt_sqrt in D0 by nra. replace (Rmax 0 (Rmin t Lg)) with Lg by (unfold Rmax, Rmin; repeat destruct Rle_dec; lra). subst t. lra. }
  assert (A0 : forall x, along (seg_a (cap_l c)) up (x * Lg) = plus (seg_a (cap_l c)) (scale x (minus (seg_b (cap_l c)) (seg_a (cap_l c))))) by (intros; rewrite E; unfold along; gunf; apply vec_ext; cbn [vx vy vz]; ring).
  split.
  - exists (along (seg_a (cap_l c)) up k), p. split; [|split; [reflexivity|]].
    + exists (k / Lg). split; [split; [apply Rmult_le_pos; [lra|left; apply Rinv_0_lt_compat; lra]|apply (Rmult_le_reg_r Lg); [lra|]; replace (k / Lg * Lg) with k by (field; lra); lra]|].
      rewrite <- A0. f_equal. field. lra.
    + apply sq_eq_pos; [apply norm_pos|exact Rc|]. rewrite D. exact Eq.
  - intros a b (j & J & ->) ->. rewrite <- A0. apply dist_sq_mono; [exact Rc|apply norm_pos|]. rewrite D, <- Eq. pose proof (clamp_near t Lg (j * Lg) ltac:(nra)). fold k in H0. lra.
Qed.
Print Assumptions C50_surface.
Example C50_points_witness : let c := Cap (Seg (V3 0 0 0) (V3 4 0 0)) 1 in long_axis c /\ good_normal (Capsule_UpDirection c) /\ 0 <= cap_r c.
Proof.
  intros c. split; [apply C50_height_witness|]. split; [|cbn; lra]. replace (Capsule_UpDirection c) with (V3 1 0 0 : pt); [unfold good_normal, unitv, dot; cbn; split; [lra|right; lra]|].
  unfold Capsule_UpDirection. assert (N : norm (vsub (seg_b (cap_l c)) (seg_a (cap_l c))) = 4) by (apply norm_is; [lra|vunf; gunf; cbn; lra]). rewrite Normalized_R; rewrite N; [|lra]. vunf. gunf. cbn. apply vec_ext; cbn [vx vy vz]; field.
Qed.

(** ** Enclosing boxes *)
Theorem C50_boxes (c : capsule R) : 0 <= cap_r c ->
  (forall b, (forall p, in_box (Capsule_MinimalEnclosingAABB c) p -> in_box b p) <-> (forall p, in_capsule c p -> in_box b p)) /\
  (long_axis c -> let o := Capsule_MinimalEnclosingOBB c in (forall p, in_capsule c p -> in_obb o p) /\
     unitv (oaxis0 o) /\ unitv (oaxis1 o) /\ unitv (oaxis2 o) /\ orth (oaxis0 o) (oaxis1 o) /\ orth (oaxis0 o) (oaxis2 o) /\ orth (oaxis1 o) (oaxis2 o) /\
     forall (a : pt) r, (a = oaxis0 o /\ r = vx (orad o) \/ a = oaxis1 o /\ r = vy (orad o) \/ a = oaxis2 o /\ r = vz (orad o)) ->
       (exists p, in_capsule c p /\ dot a (minus p (opos o)) = r) /\ (exists p, in_capsule c p /\ dot a (minus p (opos o)) = - r)).
Proof.
  intros Rc. split.
  - intros b. pose proof (tight_capsule c Rc) as T. change (Box _ _) with (Capsule_MinimalEnclosingAABB c) in T. rewrite <- (tight_within _ _ b T). rewrite within_R.
    destruct T as (I & (p & Sp & _) & _). specialize (I p Sp). unfold in_box in I. split; [|unfold in_box; intros ? q ?; lra].
    intros Q. pose proof (Q (minPoint (Capsule_MinimalEnclosingAABB c))) as Q1. pose proof (Q (maxPoint (Capsule_MinimalEnclosingAABB c))) as Q2. unfold in_box in Q1, Q2. lra.
  - intros L o. destruct (up_R c L) as [U E]. cbv zeta in E. set (up := Capsule_UpDirection c) in *. pose proof (C27_perpendicular_basis up U) as PB.
    destruct (PerpendicularBasis up) as [b1 b2] eqn:EB. destruct PB as (U1 & U2 & O1 & O2 & O3 & _).
    assert (Eo : o = Obb (Capsule_Center c) (V3 (Capsule_Height c * (1 / 2)) (cap_r c) (cap_r c)) up b1 b2) by (unfold o, Capsule_MinimalEnclosingOBB; fold up; rewrite EB; reflexivity).
    rewrite Eo. clear Eo o. cbn [opos orad oaxis0 oaxis1 oaxis2 vx vy vz]. assert (Hh : Capsule_Height c = dist (seg_a (cap_l c)) (seg_b (cap_l c)) + 2 * cap_r c) by reflexivity. unfold long_axis in L. set (Lg := dist (seg_a (cap_l c)) (seg_b (cap_l c))) in *.
    assert (Ec : Capsule_Center c = along (seg_a (cap_l c)) up (Lg / 2)).
    { unfold along. replace (scale (Lg / 2) up) with (scale (1/2) (scale Lg up)) by (gunf; apply vec_ext; cbn [vx vy vz]; field). rewrite <- E. unfold Capsule_Center, Seg_CenterPoint. vunf. gunf. rsimpl. apply vec_ext; cbn [vx vy vz]; field. }
    assert (N0 := unit_norm1 _ U). assert (N1 := unit_norm1 _ U1). assert (N2 := unit_norm1 _ U2). unfold unitv, orth in *.
    split.
    + intros p (q & (k & K & Eq) & D). set (o := Capsule_Center c) in *. set (w := minus p o). exists (dot up w), (dot b1 w), (dot b2 w). cbn [opos orad oaxis0 oaxis1 oaxis2 vx vy vz].
      assert (Qc : minus q o = scale ((k - 1 / 2) * Lg) up). { rewrite Eq, Ec, E. unfold along. gunf. apply vec_ext; cbn [vx vy vz]; field. }
      assert (Ew : w = plus (minus p q) (minus q o)) by (unfold w; gunf; apply vec_ext; cbn [vx vy vz]; ring).
      assert (B : forall v, norm v = 1 -> Rabs (dot v (minus p q)) <= cap_r c). { intros v Hv. pose proof (cauchy v (minus p q)) as Cs. fold (dist p q) in Cs. rewrite dist_sym, Hv in Cs. lra. }
      pose proof (B up N0) as B0. pose proof (B b1 N1) as B1. pose proof (B b2 N2) as B2.
      assert (D0 : dot up w = dot up (minus p q) + (k - 1 / 2) * Lg) by (rewrite Ew, dot_plus_r, Qc, dot_scale_r, U; ring).
      assert (D1 : dot b1 w = dot b1 (minus p q)) by (rewrite Ew, dot_plus_r, Qc, dot_scale_r, (dot_comm b1 up), O1; ring).
      assert (D2 : dot b2 w = dot b2 (minus p q)) by (rewrite Ew, dot_plus_r, Qc, dot_scale_r, (dot_comm b2 up), O2; ring).
      rewrite D0, D1, D2, Hh. apply Rabs_le_inv2 in B0, B1, B2. split; [clear - B0 K L; set (x := dot up (minus p q)) in *; clearbody x Lg; nra|]. split; [exact B1|]. split; [exact B2|].
      rewrite <- D0, <- D1, <- D2. pose proof (fun b => parseval up b1 b2 w b U U1 U2 O1 O2 O3) as P.
      pose proof (P (V3 1 0 0)) as X. pose proof (P (V3 0 1 0)) as Y. pose proof (P (V3 0 0 1)) as W.
      assert (F : forall a : pt, dot a (V3 1 0 0) = vx a /\ dot a (V3 0 1 0) = vy a /\ dot a (V3 0 0 1) = vz a) by (intros; unfold dot; cbn [vx vy vz]; lra).
      destruct (F up) as (F1 & F2 & F3), (F b1) as (G1 & G2 & G3), (F b2) as (H1 & H2 & H3), (F w) as (I1 & I2 & I3).
      rewrite F1, G1, H1, I1 in X. rewrite F2, G2, H2, I2 in Y. rewrite F3, G3, H3, I3 in W. set (x0 := dot up w) in *. set (x1 := dot b1 w) in *. set (x2 := dot b2 w) in *.
      replace p with (plus o w) by (unfold w; gunf; apply vec_ext; cbn [vx vy vz]; ring). f_equal. clear - X Y W. clearbody x0 x1 x2 w. apply vec_ext; unfold plus, scale; cbn [vx vy vz]; lra.
    + do 6 (split; [assumption|]). destruct (seg_ends' (cap_l c)) as [Sa Sb]. destruct (C50_height c L Rc) as (_ & _ & IB & IT & IC & _).
      assert (Hb : seg_b (cap_l c) = plus (seg_a (cap_l c)) (scale Lg up)) by (rewrite <- E; gunf; apply vec_ext; cbn [vx vy vz]; ring).
      assert (BO : minus (Capsule_Bottom c) (Capsule_Center c) = scale (- (Lg / 2 + cap_r c)) up).
      { unfold Capsule_Bottom. change (@vsub R Num_R) with minus. rewrite vmuls_R. fold up. rewrite Ec. unfold along. gunf. apply vec_ext; cbn [vx vy vz]; field. }
      assert (TO : minus (Capsule_Top c) (Capsule_Center c) = scale (Lg / 2 + cap_r c) up).
      { unfold Capsule_Top. change (@vadd R Num_R) with plus. rewrite vmuls_R. fold up. rewrite Ec, Hb. unfold along. gunf. apply vec_ext; cbn [vx vy vz]; field. }
      assert (CC : on_segment (cap_l c) (Capsule_Center c)). { exists (1/2). split; [lra|]. rewrite Ec, E. unfold along. gunf. apply vec_ext; cbn [vx vy vz]; field. }
      assert (SD : forall v s, dot v v = 1 -> norm v = 1 -> s * s = 1 -> exists p, in_capsule c p /\ dot v (minus p (Capsule_Center c)) = s * cap_r c).
      { intros v s V1 V2 S1. exists (plus (Capsule_Center c) (scale (s * cap_r c) v)). rewrite plus_minus_l, dot_scale_r, V1. split; [|ring]. exists (Capsule_Center c). split; [exact CC|]. rewrite dist_plus, norm_scale, V2, Rabs_mult, (Rabs_pos_eq (cap_r c)) by exact Rc.
        assert (Rabs s <= 1); [|nra]. apply Rabs_le. nra. }
      intros a r [[-> ->]|[[-> ->]|[-> ->]]].
      * split; [exists (Capsule_Top c); split; [exact IT|rewrite TO, dot_scale_r, U, Hh; field]|exists (Capsule_Bottom c); split; [exact IB|rewrite BO, dot_scale_r, U, Hh; field]].
      * destruct (SD b1 1 U1 N1 ltac:(ring)) as (p & P1 & P2), (SD b1 (-1) U1 N1 ltac:(ring)) as (q & Q1 & Q2). split; [exists p|exists q]; (split; [assumption|lra]).
      * destruct (SD b2 1 U2 N2 ltac:(ring)) as (p & P1 & P2), (SD b2 (-1) U2 N2 ltac:(ring)) as (q & Q1 & Q2). split; [exists p|exists q]; (split; [assumption|lra]).
Qed.
Print Assumptions C50_boxes.

(** ** Intersection tests *)
Lemma distance_le (A B : pt -> Prop) x r : distance_is A B x -> (x <= r <-> exists q p, A q /\ B p /\ dist q p <= r).
Proof.
  intros [(a & b & Aa & Bb & E) M]. split; [intros L; exists a, b; repeat split; auto; lra|]. intros (q & p & Q & P & L). eapply Rle_trans; [now apply (M q p)|exact L].
Qed.
Lemma ball_meet (p q : pt) r s : 0 <= r -> 0 <= s -> (dist p q <= r + s <-> exists x, dist p x <= r /\ dist q x <= s).
Proof.
  intros Hr Hs. split.
  - intros L. pose proof (norm_pos (minus p q)) as NP. fold (dist p q) in NP. destruct (Rle_lt_dec (dist p q) r) as [A|A].
    + exists q. split; [exact A|]. rewrite (proj2 (dist_zero q q) eq_refl). exact Hs.
    + exists (plus p (scale (r / dist p q) (minus q p))). assert (Nn : norm (minus q p) = dist p q) by (rewrite dist_sym; reflexivity). split.
      * rewrite dist_plus, <- Nn, scaled_norm; lra.
      * unfold dist at 1. replace (minus q (plus p (scale (r / dist p q) (minus q p)))) with (scale (1 - r / dist p q) (minus q p)) by (gunf; apply vec_ext; cbn [vx vy vz]; ring).
        rewrite norm_scale, Nn, Rabs_pos_eq.
        -- replace ((1 - r / dist p q) * dist p q) with (dist p q - r) by (field; lra). lra.
        -- enough (r / dist p q <= 1) by lra. apply (Rmult_le_reg_r (dist p q)); [lra|]. replace (r / dist p q * dist p q) with r by (field; lra). lra.
  - intros (x & A & B). pose proof (dist_triangle p x q). rewrite (dist_sym x q) in H. lra.
Qed.
Theorem C50_intersects (c o : capsule R) (s : sphere R) (l : line R) (r : ray R) (g : segment R) (P : plane R) :
  proper_seg (cap_l c) -> proper_seg (cap_l o) -> 0 <= cap_r c -> 0 <= cap_r o -> 0 <= srad s -> unitv (ldir l) -> unitv (rdir r) -> proper_seg g -> unitv (pnormal P) ->
  (Capsule_IntersectsLine c l = true <-> exists p, in_capsule c p /\ on_line l p) /\ (Capsule_IntersectsRay c r = true <-> exists p, in_capsule c p /\ on_ray r p) /\
  (Capsule_IntersectsSeg c g = true <-> exists p, in_capsule c p /\ on_segment g p) /\ (Capsule_IntersectsPlane c P = true <-> exists p, in_capsule c p /\ on_plane P p) /\
  (Capsule_IntersectsSphere c s = true <-> exists p, in_capsule c p /\ in_sphere s p) /\ (Capsule_IntersectsCapsule c o = true <-> exists p, in_capsule c p /\ in_capsule o p).
Proof.
  intros Pc Po Rc Ro Rs Ul Ur Pg Un.
  assert (D : forall (B : pt -> Prop) x, distance_is (on_segment (cap_l c)) B x -> ((x <=? cap_r c)%num = true <-> exists p, in_capsule c p /\ B p)).
  { intros B x H. rsimpl. rewrite Rleb_true, (distance_le _ _ _ _ H). split.
    - intros (q & p & Q & Bp & L). exists p. split; [exists q; auto|exact Bp].
    - intros (p & (q & Q & L) & Bp). exists q, p. auto. }
  destruct (C43_distances_segment (cap_l c) g l r (spos s) Pc Pg Ul Ur) as (_ & Sq & D3 & _ & D2 & D1).
  destruct (C43_distances_segment (cap_l c) (cap_l o) l r (spos s) Pc Po Ul Ur) as (A & _ & D5 & Sq5 & _ & _).
  split; [now apply D|]. split; [now apply D|]. split; [now apply D|]. split.
  { apply D. apply distance_sym. apply (C39_distance_objects P (cap_l c) s c Un Rs Rc). }
  split.
  - unfold Capsule_IntersectsSphere. rewrite (Sq _ A). set (x := fst (Seg_Distance (cap_l c) (spos s))) in *. rsimpl. rewrite Rleb_true. assert (X : 0 <= x) by (destruct A as [(a & b & _ & _ & <-) _]; apply norm_pos).
    transitivity (x <= cap_r c + srad s); [split; intros; nra|]. rewrite (distance_le _ _ _ _ A). split.
    + intros (q & p & Q & -> & L). apply ball_meet in L; [|exact Rc|exact Rs]. destruct L as (y & Y1 & Y2). exists y. split; [exists q; auto|exact Y2].
    + intros (y & (q & Q & Y1) & Y2). exists q, (spos s). split; [exact Q|]. split; [reflexivity|]. apply ball_meet; [exact Rc|exact Rs|]. exists y. auto.
  - unfold Capsule_IntersectsCapsule. rewrite (Sq5 _ D5). set (x := fst (fst (Seg_DistanceSeg (cap_l c) (cap_l o)))) in *. rsimpl. rewrite Rleb_true. assert (X : 0 <= x) by (destruct D5 as [(a & b & _ & _ & <-) _]; apply norm_pos).
    transitivity (x <= cap_r c + cap_r o); [split; intros; nra|]. rewrite (distance_le _ _ _ _ D5). split.
    + intros (q & p & Q & Pp & L). apply ball_meet in L; [|exact Rc|exact Ro]. destruct L as (y & Y1 & Y2). exists y. split; [exists q; auto|exists p; auto].
    + intros (y & (q & Q & Y1) & (p & Pp & Y2)). exists q, p. split; [exact Q|]. split; [exact Pp|]. apply ball_meet; [exact Rc|exact Ro|]. exists y. auto.
Qed.
Print Assumptions C50_intersects.
(** With a triangle: exact when the axis meets it at a determinant above 1e-4, or stays away from the triangle enlarged by 1e-4 (C47). *)
Theorem C50_intersects_triangle (c : capsule R) (t : triangle R) : proper_tri t -> proper_seg (cap_l c) -> 0 <= cap_r c ->
  let det := Rabs (tri_det t (minus (seg_b (cap_l c)) (seg_a (cap_l c)))) in
  ((exists p, in_triangle t p /\ on_segment (cap_l c) p) -> tol < det -> Capsule_IntersectsTri c t = true) /\
  ((forall p, in_triangle t p -> on_segment (cap_l c) p -> False) -> (det <= tol \/ forall p, in_enlarged t tol p -> on_segment (cap_l c) p -> False) ->
    (Capsule_IntersectsTri c t = true <-> exists p, in_capsule c p /\ in_triangle t p)).
Proof.
  intros Pt Ps Rc det. unfold Capsule_IntersectsTri. pose proof (C47_segment t (cap_l c) Pt Ps) as H. destruct (Tri_ClosestPointSeg t (cap_l c)) as [p q]. destruct H as (_ & H1 & H2). change (@DistanceSq R Num_R) with sqd. rsimpl. rewrite Rleb_true.
  assert (Q : sqd q p = dist q p * dist q p) by (unfold dist; rewrite norm_sq; reflexivity). rewrite Q. split.
  - intros X D. destruct (H1 X D) as [-> _]. rewrite (proj2 (dist_zero q q) eq_refl). nra.
  - intros X D. destruct (H2 X D) as (Ip & Iq & M). rewrite dist_sym. pose proof (norm_pos (minus p q)) as NP. fold (dist p q) in NP. split.
    + intros L. exists p. split; [|exact Ip]. exists q. split; [exact Iq|]. rewrite dist_sym. nra.
    + intros (x & (y & Y & L) & Ix). specialize (M x y Ix Y). rewrite (dist_sym x y) in M. nra.
Qed.
Print Assumptions C50_intersects_triangle.
Example C50_intersects_witness : proper_seg (Seg (V3 0 0 0 : pt) (V3 4 0 0)) /\ unitv (ldir (Ln (V3 0 5 0) (V3 1 0 0))) /\ unitv (pnormal (Pln (V3 0 1 0) 3)).
Proof. split; [intros E; apply (f_equal vx) in E; cbn in E; lra|]. split; unfold unitv, dot; cbn; lra. Qed.

(** ** Transforms *)
Lemma image_capsule (c c' : capsule R) (f : pt -> pt) k : 0 < k -> (forall x y, dist (f x) (f y) = k * dist x y) -> (forall q, exists p, q = f p) ->
  (forall x y j, f (plus x (scale j (minus y x))) = plus (f x) (scale j (minus (f y) (f x)))) ->
  seg_a (cap_l c') = f (seg_a (cap_l c)) -> seg_b (cap_l c') = f (seg_b (cap_l c)) -> cap_r c' = cap_r c * k -> forall p, in_capsule c' p <-> image f (in_capsule c) p.
Proof.
  intros K D S A Ea Eb Er p. unfold image, in_capsule, on_segment. rewrite Ea, Eb, Er. split.
  - intros (q & (j & J & ->) & L). destruct (S p) as (x & ->). rewrite <- A, D in L. exists x. split; [|reflexivity]. eexists. split; [exists j; split; [exact J|reflexivity]|]. nra.
  - intros (x & (q & (j & J & ->) & L) & ->). eexists. split; [exists j; split; [exact J|reflexivity]|]. rewrite <- A, D. nra.
Qed.
Theorem C50_transforms (c : capsule R) (m : mat34 R) (a : mat3 R) (q : quat R) (v o : pt) (k : R) : 0 < k ->
  (forall p, in_capsule (Capsule_Translate c v) p <-> image (fun x => plus x v) (in_capsule c) p) /\
  (forall p, in_capsule (Capsule_Scale c o k) p <-> image (fun x => plus o (scale k (minus x o))) (in_capsule c) p) /\
  (scales_by (apply a) k -> forall p, in_capsule (Capsule_Transform3 c a) p <-> image (apply a) (in_capsule c) p) /\
  (scales_by (apply (lin34 m)) k -> forall p, in_capsule (Capsule_Transform34 c m) p <-> image (apply34 m) (in_capsule c) p) /\
  (unitq q -> forall p, in_capsule (Capsule_TransformQuat c q) p <-> image (apply (FromQuat q)) (in_capsule c) p).
Proof.
  intros K. assert (LA : forall (b : mat3 R) x y j, apply b (plus x (scale j (minus y x))) = plus (apply b x) (scale j (minus (apply b y) (apply b x)))) by (intros; unfold apply; gunf; apply vec_ext; cbn [vx vy vz]; ring).
  split; [|split; [|split; [|split]]].
  - apply (image_capsule c _ _ 1); try reflexivity; try lra.
    + intros x y. rewrite Rmult_1_l. unfold dist. f_equal. gunf; apply vec_ext; cbn [vx vy vz]; ring.
    + intros p. exists (minus p v). gunf; apply vec_ext; cbn [vx vy vz]; ring.
    + intros x y j. gunf; apply vec_ext; cbn [vx vy vz]; ring.
    + unfold Capsule_Translate. cbn [cap_r]. ring.
  - assert (G : forall x, mulpos34 (ScaleAbout34 (V3 k k k) o) x = plus o (scale k (minus x o))).
    { intros x. rewrite mulpos34_apply. unfold ScaleAbout34, TimesTranslate34, TranslateScale, apply34. cbn [lin34 trans34]. rewrite mulpos34_apply. unfold apply34, apply, ScaleOp3, mk3, vneg. cbn [lin34 trans34 row0 row1 row2]. rsimpl. unfold n0, n1. rsimpl. gunf. cbn [vx vy vz]. apply vec_ext; cbn [vx vy vz]; ring. }
    apply (image_capsule c _ _ k); try reflexivity; try assumption; unfold Capsule_Scale, Seg_Transform34; cbn [cap_l cap_r seg_a seg_b]; try apply G.
    + intros x y. unfold dist. replace (minus (plus o (scale k (minus x o))) (plus o (scale k (minus y o)))) with (scale k (minus x y)) by (gunf; apply vec_ext; cbn [vx vy vz]; ring). rewrite norm_scale, Rabs_pos_eq; [reflexivity|lra].
    + intros p. exists (plus o (scale (/ k) (minus p o))). gunf; apply vec_ext; cbn [vx vy vz]; field; lra.
    + intros x y j. gunf; apply vec_ext; cbn [vx vy vz]; ring.
  - intros S. apply (image_capsule c _ _ k); try reflexivity; try assumption.
    + intros x y. unfold dist. rewrite <- apply_minus. apply S.
    + intros p. now apply (scales_onto a k).
    + apply LA.
    + unfold Capsule_Transform3. cbn [cap_r]. rewrite (scales_col a k S). reflexivity.
  - intros S. assert (T : forall (x y : pt), minus (apply34 m x) (apply34 m y) = apply (lin34 m) (minus x y)) by (intros; unfold apply34; rewrite apply_minus; gunf; apply vec_ext; cbn [vx vy vz]; ring).
    apply (image_capsule c _ _ k); try reflexivity; try assumption.
    + intros x y. unfold dist. rewrite T. apply S.
    + intros p. destruct (scales_onto (lin34 m) k K S (minus p (trans34 m))) as (x & Ex). exists x. unfold apply34. rewrite <- Ex. gunf; apply vec_ext; cbn [vx vy vz]; ring.
    + intros x y j. rewrite T. unfold apply34. rewrite LA, apply_minus. gunf; apply vec_ext; cbn [vx vy vz]; ring.
    + unfold Capsule_Transform34. cbn [cap_r]. rewrite (scales_col _ k S). reflexivity.
  - intros Q. destruct (quat_rotation q Q) as (D & _). assert (S : scales_by (apply (FromQuat q)) 1) by (intros x; unfold norm; rewrite D; ring).
    apply (image_capsule c _ _ 1); try reflexivity; try lra.
    + intros x y. unfold dist. rewrite <- apply_minus. apply S.
    + intros p. apply (scales_onto _ 1); [lra|exact S].
    + apply LA.
    + unfold Capsule_TransformQuat. cbn [cap_r]. ring.
Qed.
Print Assumptions C50_transforms.

(** ** Volume and surface *)
Lemma deriv_poly a b d h : derivable_pt_lim (fun x => a * x + b * (x * x) + d * (x * x * x)) h (a + b * (2 * h) + d * (3 * (h * h))).
Proof.
  replace (a + b * (2 * h) + d * (3 * (h * h))) with (a * 1 + b * (1 * h + h * 1) + d * ((1 * h + h * 1) * h + h * h * 1)) by ring.
  assert (I := fun x => derivable_pt_lim_id x). apply derivable_pt_lim_plus; [apply derivable_pt_lim_plus|]; apply derivable_pt_lim_scal; [apply I|apply (derivable_pt_lim_mult (fun h => h) (fun h => h)); apply I|].
  apply (derivable_pt_lim_mult (fun h => h * h) (fun h => h)); [apply (derivable_pt_lim_mult (fun h => h) (fun h => h))|]; apply I.
Qed.
Lemma deriv_is f x l l' : l' = l -> derivable_pt_lim f x l' -> derivable_pt_lim f x l.
Proof. now intros ->. Qed.
(** Volume: what the areas of the cross sections add up to (their primitives on the three parts of the height), and the surface is its growth with the radius. *)
Theorem C50_volume (c : capsule R) : long_axis c -> 0 < cap_r c ->
  let L := dist (seg_a (cap_l c)) (seg_b (cap_l c)) in let r := cap_r c in
  let area h := PI * (circ_r (Capsule_CrossSection c (h / Capsule_Height c)) * circ_r (Capsule_CrossSection c (h / Capsule_Height c))) in
  (exists F G K, (forall h, 0 <= h <= r -> derivable_pt_lim F h (area h)) /\ (forall h, r <= h <= L + r -> derivable_pt_lim G h (area h)) /\ (forall h, L + r <= h <= L + 2 * r -> derivable_pt_lim K h (area h)) /\
     Capsule_Volume PI c = (F r - F 0) + (G (L + r) - G r) + (K (L + 2 * r) - K (L + r))) /\
  derivable_pt_lim (fun x => Capsule_Volume PI (Cap (cap_l c) x)) r (Capsule_SurfaceArea PI c).
Proof.
  intros H Rc L r area. assert (Hh : Capsule_Height c = L + 2 * r) by reflexivity. unfold long_axis in H. fold L in H. fold r in Rc.
  assert (Ar : forall h, 0 <= h <= L + 2 * r -> area h = PI * (if Rltb h r then r * r - (r - h) * (r - h) else if Rltb h (L + r) then r * r else r * r - (h - r - L) * (h - r - L))).
  { intros h Hr. unfold area. destruct (section_R c (h / Capsule_Height c) H) as (_ & _ & ->). replace (h / Capsule_Height c * Capsule_Height c) with h by (field; lra). fold r L. f_equal.
    destruct (Rltb_spec h r); [apply sqrt_sqrt; nra|]. destruct (Rltb_spec h (L + r)); [reflexivity|]. apply sqrt_sqrt. nra. }
  split.
  - exists (fun x => 0 * x + PI * r * (x * x) + - PI / 3 * (x * x * x)), (fun x => PI * (r * r) * x + 0 * (x * x) + 0 * (x * x * x)), (fun x => PI * (r * r - (r + L) * (r + L)) * x + PI * (r + L) * (x * x) + - PI / 3 * (x * x * x)).
    split; [|split; [|split]].
    + intros h Hr. rewrite Ar by lra. eapply deriv_is; [|apply deriv_poly]. destruct (Rltb_spec h r) as [A|A]; [field|]. assert (h = r) by lra. subst h. destruct (Rltb_spec r (L + r)); [field|lra].
    + intros h Hr. rewrite Ar by lra. eapply deriv_is; [|apply deriv_poly]. destruct (Rltb_spec h r) as [A|A]; [lra|]. destruct (Rltb_spec h (L + r)); [field|]. assert (h = L + r) by lra. subst h. field.
    + intros h Hr. rewrite Ar by lra. eapply deriv_is; [|apply deriv_poly]. destruct (Rltb_spec h r) as [A|A]; [lra|]. destruct (Rltb_spec h (L + r)); [lra|]. field.
    + unfold Capsule_Volume. change (Capsule_LineLength c) with L. fold r. rewrite !nlit_R. rsimpl. field.
  - unfold Capsule_Volume, Capsule_SurfaceArea. cbn [cap_r]. change (Capsule_LineLength c) with L. assert (E : forall x, Capsule_LineLength (Cap (cap_l c) x) = L) by reflexivity. fold r. rewrite !nlit_R. rsimpl. unfold n2. rsimpl.
    apply (derivable_pt_lim_ext (fun x => 0 * x + PI * L * (x * x) + 4 * PI / 3 * (x * x * x))); [intros x; rewrite E; field|]. eapply deriv_is; [|apply deriv_poly]. field.
Qed.
Print Assumptions C50_volume.
(** ** A thin capsule: points outside it but closer than 0.001 to the axis are sent along X instead. *)
Theorem C50_thin_refuted : exists (c : capsule R) (p : pt), proper_seg (cap_l c) /\ 0 < cap_r c /\ ~ nearest (in_capsule c) p (Capsule_ClosestPoint c p).
Proof.
  exists (Cap (Seg (V3 0 0 0) (V3 4 0 0)) (1/10000)), (V3 0 (1/2000) 0). split; [apply C50_intersects_witness|]. split; [cbn; lra|].
  set (c := Cap _ _). set (p := V3 0 _ _). assert (E : Capsule_ClosestPoint c p = V3 (1/10000) 0 0).
  { unfold Capsule_ClosestPoint. rewrite Seg_ClosestPoint_R. cbn [fst]. assert (D : dot (minus p (seg_a (cap_l c))) (sdir (cap_l c)) = 0) by (unfold dot, minus, sdir; cbn; lra). rewrite D. 
    assert (C0 : clamp01 (0 / dot (sdir (cap_l c)) (sdir (cap_l c))) = 0) by (unfold Rdiv; rewrite Rmult_0_l; unfold clamp01; destruct (Rlt_dec 0 0), (Rlt_dec 1 0); lra). rewrite C0, along_0. change (@DistanceSq R Num_R) with sqd. rsimpl.
    assert (S : sqd (seg_a (cap_l c)) p = 1 / 4000000) by (unfold sqd, dot, minus; cbn; lra). rewrite S. destruct (Rleb_spec (1 / 4000000) (cap_r c * cap_r c)) as [L|_]; [exfalso; cbn in L; lra|].
    unfold ScaledToLength, ScaleToLength. change (@vsub R Num_R) with minus. set (v := minus p (seg_a (cap_l c))). assert (V : dot v v = 1 / 4000000) by (unfold v, dot, minus; cbn; lra). change (LengthSq v) with (dot v v). rewrite V. rsimpl. rewrite (proj2 (Rltb_true _ _)) by lra. cbn [fst]. unfold vadd. cbn. rsimpl. apply vec_ext; cbn [vx vy vz]; lra. }
  rewrite E. intros [_ M]. specialize (M (V3 0 (1/10000) 0)). assert (I : in_capsule c (V3 0 (1/10000) 0)).
  { exists (V3 0 0 0). split; [exists 0; split; [lra|]; cbn; gunf; apply vec_ext; cbn [vx vy vz]; ring|]. unfold dist. apply norm_sq_le; cbn; [lra|]. gunf. lra. }
  specialize (M I). assert (L : dist (V3 0 (1/10000) 0) p = 4 / 10000) by (unfold dist; apply norm_is; [lra|]; unfold p; gunf; lra).
  rewrite L in M. assert (Q : dist (V3 (1 / 10000) 0 0) p * dist (V3 (1 / 10000) 0 0) p = 26 / 100000000) by (unfold dist; rewrite norm_sq; unfold p; gunf; lra). pose proof (norm_pos (minus (V3 (1 / 10000) 0 0) p)) as X. fold (dist (V3 (1 / 10000) 0 0) p) in X. clear - M Q X. set (x := dist _ _) in *. clearbody x. nra.
Qed.
Print Assumptions C50_thin_refuted.
Example C50_closest_witness : let c := Cap (Seg (V3 0 0 0) (V3 4 0 0)) 1 in 0 <= cap_r c /\ forall q, on_segment (cap_l c) q -> 1 / 1000 <= dist q (V3 2 3 0).
Proof.
  cbv zeta. split; [cbn; lra|]. intros q (k & K & ->). apply dist_sq_mono; [lra|apply norm_pos|]. unfold dist. rewrite norm_sq. cbn. gunf. nra.
Qed.
