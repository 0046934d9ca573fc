(** Lemmas for the AABB properties. *)
From Coq Require Import Reals Lra Psatz ZArith Bool List Permutation.
From Verif Require Import Num NumR ScalarModel ScalarProofs ScalarProps Vec3Model GeoTypes GeoSpec GeoLemmas AabbModel AabbSpec.
Import ListNotations.

Section Ord.
  Context {T : Type} `{OL : OrdLaws T}.

  Lemma le_min x a b : ok a -> ok b -> (nleb x (Min a b) = true <-> nleb x a = true /\ nleb x b = true).
  Proof.
    intros Oa Ob. destruct (C16_min a b Oa Ob) as (E & A & B). split.
    - intros L. split; eauto using leb_trans.
    - intros [L1 L2]. destruct E as [-> | ->]; assumption.
  Qed.
  Lemma max_le x a b : ok a -> ok b -> (nleb (Max a b) x = true <-> nleb a x = true /\ nleb b x = true).
  Proof.
    intros Oa Ob. destruct (C16_max a b Oa Ob) as (E & A & B). split.
    - intros L. split; eauto using leb_trans.
    - intros [L1 L2]. destruct E as [-> | ->]; assumption.
  Qed.
  Lemma okv_vMin a b : okv a -> okv b -> okv (vMin a b).
  Proof. intros (?&?&?) (?&?&?). repeat split; now apply min_ok. Qed.
  Lemma okv_vMax a b : okv a -> okv b -> okv (vMax a b).
  Proof. intros (?&?&?) (?&?&?). repeat split; now apply max_ok. Qed.

  Lemma within_refl b : okb b -> within b b.
  Proof. intros [(?&?&?) (?&?&?)]. repeat split; now apply leb_refl_ok. Qed.
  Lemma within_inside b c p : within b c -> inside b p -> inside c p.
  Proof. intros ((?&?)&(?&?)&(?&?)) ((?&?)&(?&?)&(?&?)). repeat split; eauto using leb_trans. Qed.
  Lemma within_trans b c d : within b c -> within c d -> within b d.
  Proof. intros ((?&?)&(?&?)&(?&?)) ((?&?)&(?&?)&(?&?)). repeat split; eauto using leb_trans. Qed.
  Lemma inside_within p b : inside b p <-> within (Box p p) b.
  Proof. unfold inside, within. cbn [minPoint maxPoint]. tauto. Qed.

  (** Enclosing is the join of boxes. *)
  Lemma encloseMM_within b mn mx c : okb b -> okv mn -> okv mx ->
    (within (AABB_EncloseMinMax b mn mx) c <-> within b c /\ within (Box mn mx) c).
  Proof.
    intros [(?&?&?) (?&?&?)] (?&?&?) (?&?&?). unfold within, AABB_EncloseMinMax, vMin, vMax. cbn [minPoint maxPoint vx vy vz].
    rewrite !le_min, !max_le by assumption. tauto.
  Qed.
  Lemma encloseMM_okb b mn mx : okb b -> okv mn -> okv mx -> okb (AABB_EncloseMinMax b mn mx).
  Proof. intros [? ?] ? ?. split; [now apply okv_vMin|now apply okv_vMax]. Qed.
  Lemma seg_within a b c : okv a -> okv b -> (within (Box (vMin a b) (vMax a b)) c <-> inside c a /\ inside c b).
  Proof.
    intros (?&?&?) (?&?&?). unfold within, inside, vMin, vMax. cbn [minPoint maxPoint vx vy vz].
    rewrite !le_min, !max_le by assumption. tauto.
  Qed.
  Lemma tri_within p q r c : okv p -> okv q -> okv r ->
    (within (Box (vMin (vMin p q) r) (vMax (vMax p q) r)) c <-> inside c p /\ inside c q /\ inside c r).
  Proof.
    intros (?&?&?) (?&?&?) (?&?&?). unfold within, inside, vMin, vMax. cbn [minPoint maxPoint vx vy vz].
    rewrite !le_min, !max_le by auto using min_ok, max_ok. tauto.
  Qed.
  Lemma box_within mn mx c : okv mn -> okv mx -> nonempty (Box mn mx) ->
    (within (Box mn mx) c <-> inside c mn /\ inside c mx).
  Proof.
    intros (?&?&?) (?&?&?) (L1&L2&L3). unfold within, inside. cbn [minPoint maxPoint vx vy vz] in *.
    split; [|tauto]. intros ((?&?)&(?&?)&(?&?)). repeat split; eauto using leb_trans.
  Qed.
End Ord.

(** Real versions. *)
Open Scope R_scope.
Lemma inside_R b (p : pt) : inside b p <-> in_box b p.
Proof. unfold inside, in_box. rsimpl. rewrite !Rleb_true. tauto. Qed.
Lemma nonempty_R b : nonempty b <-> box_ok b.
Proof. unfold nonempty, box_ok. rsimpl. rewrite !Rleb_true. tauto. Qed.
Lemma within_R (b c : aabb R) : within b c <->
  (vx (minPoint c) <= vx (minPoint b) /\ vx (maxPoint b) <= vx (maxPoint c)) /\
  (vy (minPoint c) <= vy (minPoint b) /\ vy (maxPoint b) <= vy (maxPoint c)) /\
  (vz (minPoint c) <= vz (minPoint b) /\ vz (maxPoint b) <= vz (maxPoint c)).
Proof. unfold within. rsimpl. rewrite !Rleb_true. tauto. Qed.
Lemma okv_R (v : pt) : okv v. Proof. repeat split. Qed.
Lemma okb_R (b : aabb R) : okb b. Proof. repeat split. Qed.
Global Hint Resolve okv_R okb_R : core.

(** A set whose tight bounds are the corners of a box. *)
Definition tight (S : pt -> Prop) (b : aabb R) : Prop :=
  (forall p, S p -> in_box b p) /\
  (exists p, S p /\ vx p = vx (minPoint b)) /\ (exists p, S p /\ vx p = vx (maxPoint b)) /\
  (exists p, S p /\ vy p = vy (minPoint b)) /\ (exists p, S p /\ vy p = vy (maxPoint b)) /\
  (exists p, S p /\ vz p = vz (minPoint b)) /\ (exists p, S p /\ vz p = vz (maxPoint b)).
Lemma tight_within S b c : tight S b -> (within b c <-> forall p, S p -> in_box c p).
Proof.
  intros (I & (p1&S1&E1) & (p2&S2&E2) & (p3&S3&E3) & (p4&S4&E4) & (p5&S5&E5) & (p6&S6&E6)). split.
  - intros W p Sp. apply inside_R. eapply within_inside; [exact W|]. now apply inside_R, I.
  - intros H. apply within_R.
    pose proof (H _ S1) as H1. pose proof (H _ S2) as H2. pose proof (H _ S3) as H3. pose proof (H _ S4) as H4.
    pose proof (H _ S5) as H5. pose proof (H _ S6) as H6. unfold in_box in *. lra.
Qed.

Lemma coord_le_norm (v : pt) : Rabs (vx v) <= norm v /\ Rabs (vy v) <= norm v /\ Rabs (vz v) <= norm v.
Proof.
  unfold norm. rewrite <- !sqrt_Rsqr_abs. unfold Rsqr. pose proof (sqrt_le_1_alt (vx v * vx v) (dot v v)).
  pose proof (sqrt_le_1_alt (vy v * vy v) (dot v v)). pose proof (sqrt_le_1_alt (vz v * vz v) (dot v v)). gunf. nra.
Qed.
Lemma coord_dist (p q : pt) r : dist p q <= r -> Rabs (vx p - vx q) <= r /\ Rabs (vy p - vy q) <= r /\ Rabs (vz p - vz q) <= r.
Proof. intros D. destruct (coord_le_norm (minus p q)) as (A&B&C). unfold dist in D. cbn in *. lra. Qed.
Lemma Rabs_le_inv2 x r : Rabs x <= r -> - r <= x <= r.
Proof. unfold Rabs. destruct (Rcase_abs x); lra. Qed.
Lemma dist_axis (p q : pt) e r : 0 <= r -> q = plus p (scale r e) -> dot e e = 1 -> dist p q <= r.
Proof.
  intros Hr -> He. unfold dist. apply norm_sq_le; [assumption|].
  replace (minus p (plus p (scale r e))) with (scale (- r) e) by (apply vec_ext; cbn; ring).
  rewrite dot_scale_l, dot_scale_r, He. lra.
Qed.
Definition ex : pt := V3 1 0 0. Definition ey : pt := V3 0 1 0. Definition ez : pt := V3 0 0 1.
Lemma ex1 : dot ex ex = 1. Proof. unfold dot, ex; cbn; ring. Qed.
Lemma ey1 : dot ey ey = 1. Proof. unfold dot, ey; cbn; ring. Qed.
Lemma ez1 : dot ez ez = 1. Proof. unfold dot, ez; cbn; ring. Qed.
Lemma nx1 : dot (scale (-1) ex) (scale (-1) ex) = 1. Proof. unfold scale, dot, ex; cbn; ring. Qed.
Lemma ny1 : dot (scale (-1) ey) (scale (-1) ey) = 1. Proof. unfold scale, dot, ey; cbn; ring. Qed.
Lemma nz1 : dot (scale (-1) ez) (scale (-1) ez) = 1. Proof. unfold scale, dot, ez; cbn; ring. Qed.

Lemma tight_sphere s : 0 <= srad s ->
  tight (in_sphere s) (Box (vsub (spos s) (FromScalar (srad s))) (vadd (spos s) (FromScalar (srad s)))).
Proof.
  intros Hr. unfold tight, in_box. cbn [minPoint maxPoint]. unfold vsub, vadd, FromScalar. cbn [vx vy vz]. rsimpl. split.
  { intros p Hp. destruct (coord_dist _ _ _ Hp) as (A&B&C). apply Rabs_le_inv2 in A, B, C. lra. }
  assert (G : forall e, dot e e = 1 -> in_sphere s (plus (spos s) (scale (srad s) e))).
  { intros e He. unfold in_sphere. now apply (dist_axis _ _ e). }
  split; [exists (plus (spos s) (scale (srad s) (scale (-1) ex))); split; [apply G, nx1|cbn; ring]|].
  split; [exists (plus (spos s) (scale (srad s) ex)); split; [apply G, ex1|cbn; ring]|].
  split; [exists (plus (spos s) (scale (srad s) (scale (-1) ey))); split; [apply G, ny1|cbn; ring]|].
  split; [exists (plus (spos s) (scale (srad s) ey)); split; [apply G, ey1|cbn; ring]|].
  split; [exists (plus (spos s) (scale (srad s) (scale (-1) ez))); split; [apply G, nz1|cbn; ring]|].
  exists (plus (spos s) (scale (srad s) ez)); split; [apply G, ez1|cbn; ring].
Qed.

Lemma between_minmax a b t : 0 <= t <= 1 -> Rmin a b <= a + t * (b - a) <= Rmax a b.
Proof. intros H. unfold Rmin, Rmax. destruct (Rle_dec a b); nra. Qed.
Lemma seg_a_on s : on_segment s (seg_a s).
Proof. exists 0. split; [lra|]. apply vec_ext; cbn; ring. Qed.
Lemma seg_b_on s : on_segment s (seg_b s).
Proof. exists 1. split; [lra|]. apply vec_ext; cbn; ring. Qed.

Ltac mm := unfold vMin, vMax; cbn [vx vy vz minPoint maxPoint]; rewrite ?Min_R, ?Max_R.
Lemma pick_min (S : pt -> Prop) (f : pt -> R) a b : S a -> S b -> exists p, S p /\ f p = Rmin (f a) (f b).
Proof. intros. unfold Rmin. destruct (Rle_dec (f a) (f b)); eauto. Qed.
Lemma pick_max (S : pt -> Prop) (f : pt -> R) a b : S a -> S b -> exists p, S p /\ f p = Rmax (f a) (f b).
Proof. intros. unfold Rmax. destruct (Rle_dec (f a) (f b)); eauto. Qed.
Lemma tight_segment s : tight (on_segment s) (Box (vMin (seg_a s) (seg_b s)) (vMax (seg_a s) (seg_b s))).
Proof.
  unfold tight, in_box. mm. split.
  { intros p (t & Ht & ->). cbn. pose proof (between_minmax (vx (seg_a s)) (vx (seg_b s)) t Ht).
    pose proof (between_minmax (vy (seg_a s)) (vy (seg_b s)) t Ht). pose proof (between_minmax (vz (seg_a s)) (vz (seg_b s)) t Ht). lra. }
  pose proof (seg_a_on s). pose proof (seg_b_on s).
  repeat split; (now apply pick_min) || (now apply pick_max).
Qed.

Lemma tri_corner_a t : in_triangle t (tri_a t).
Proof. exists 1, 0, 0. repeat split; try lra. apply vec_ext; cbn; ring. Qed.
Lemma tri_corner_b t : in_triangle t (tri_b t).
Proof. exists 0, 1, 0. repeat split; try lra. apply vec_ext; cbn; ring. Qed.
Lemma tri_corner_c t : in_triangle t (tri_c t).
Proof. exists 0, 0, 1. repeat split; try lra. apply vec_ext; cbn; ring. Qed.
Lemma convex3 a b c u v w : 0 <= u -> 0 <= v -> 0 <= w -> u + v + w = 1 ->
  Rmin (Rmin a b) c <= u * a + (v * b + w * c) <= Rmax (Rmax a b) c.
Proof.
  intros. pose proof (Rmin_l (Rmin a b) c). pose proof (Rmin_r (Rmin a b) c). pose proof (Rmin_l a b). pose proof (Rmin_r a b).
  pose proof (Rmax_l (Rmax a b) c). pose proof (Rmax_r (Rmax a b) c). pose proof (Rmax_l a b). pose proof (Rmax_r a b).
  replace w with (1 - u - v) in * by lra. set (m := Rmin (Rmin a b) c) in *. set (M := Rmax (Rmax a b) c) in *.
  assert (m <= a /\ m <= b /\ m <= c /\ a <= M /\ b <= M /\ c <= M) by lra. clearbody m M. split; nra.
Qed.
Lemma pick3_min (S : pt -> Prop) (f : pt -> R) a b c : S a -> S b -> S c -> exists p, S p /\ f p = Rmin (Rmin (f a) (f b)) (f c).
Proof. intros. unfold Rmin. destruct (Rle_dec (f a) (f b)), (Rle_dec _ (f c)); eauto. Qed.
Lemma pick3_max (S : pt -> Prop) (f : pt -> R) a b c : S a -> S b -> S c -> exists p, S p /\ f p = Rmax (Rmax (f a) (f b)) (f c).
Proof. intros. unfold Rmax. destruct (Rle_dec (f a) (f b)), (Rle_dec _ (f c)); eauto. Qed.
Lemma tight_triangle t : tight (in_triangle t)
  (Box (vMin (vMin (tri_a t) (tri_b t)) (tri_c t)) (vMax (vMax (tri_a t) (tri_b t)) (tri_c t))).
Proof.
  unfold tight, in_box. mm. split.
  { intros p (u & v & w & Hu & Hv & Hw & E & ->). cbn. repeat split; now apply convex3. }
  pose proof (tri_corner_a t). pose proof (tri_corner_b t). pose proof (tri_corner_c t).
  repeat split; (now apply pick3_min) || (now apply pick3_max).
Qed.

Lemma tight_capsule c : 0 <= cap_r c ->
  tight (in_capsule c) (Box (vsub (vMin (seg_a (cap_l c)) (seg_b (cap_l c))) (FromScalar (cap_r c)))
                            (vadd (vMax (seg_a (cap_l c)) (seg_b (cap_l c))) (FromScalar (cap_r c)))).
Proof.
  intros Hr. unfold tight, in_box. mm. unfold vsub, vadd, FromScalar. cbn [vx vy vz]. rsimpl. split.
  { intros p (q & (t & Ht & ->) & D). destruct (coord_dist _ _ _ D) as (A&B&C). apply Rabs_le_inv2 in A, B, C. cbn in A, B, C.
    pose proof (between_minmax (vx (seg_a (cap_l c))) (vx (seg_b (cap_l c))) t Ht).
    pose proof (between_minmax (vy (seg_a (cap_l c))) (vy (seg_b (cap_l c))) t Ht).
    pose proof (between_minmax (vz (seg_a (cap_l c))) (vz (seg_b (cap_l c))) t Ht). lra. }
  assert (G : forall e, dot e e = 1 -> in_capsule c (plus (seg_a (cap_l c)) (scale (cap_r c) e)) /\ in_capsule c (plus (seg_b (cap_l c)) (scale (cap_r c) e))).
  { intros e He. split; [exists (seg_a (cap_l c))|exists (seg_b (cap_l c))]; (split; [(apply seg_a_on || apply seg_b_on)|]); now apply (dist_axis _ _ e). }
  destruct (G _ ex1) as [X1 X2]. destruct (G _ ey1) as [Y1 Y2]. destruct (G _ ez1) as [Z1 Z2].
  destruct (G _ nx1) as [X3 X4]. destruct (G _ ny1) as [Y3 Y4]. destruct (G _ nz1) as [Z3 Z4].
  split; [destruct (pick_min _ vx _ _ X3 X4) as (p & P & E)|
  split; [destruct (pick_max _ vx _ _ X1 X2) as (p & P & E)|
  split; [destruct (pick_min _ vy _ _ Y3 Y4) as (p & P & E)|
  split; [destruct (pick_max _ vy _ _ Y1 Y2) as (p & P & E)|
  split; [destruct (pick_min _ vz _ _ Z3 Z4) as (p & P & E)|
          destruct (pick_max _ vz _ _ Z1 Z2) as (p & P & E)]]]]];
  exists p; (split; [exact P|]); rewrite E; cbn;
  unfold Rmin, Rmax; repeat match goal with |- context [Rle_dec ?a ?b] => destruct (Rle_dec a b) end; lra.
Qed.

(** Half extents of an oriented box along the coordinate axes. *)
Definition obb_half (o : obb R) : pt :=
  V3 (vx (orad o) * Rabs (vx (oaxis0 o)) + vy (orad o) * Rabs (vx (oaxis1 o)) + vz (orad o) * Rabs (vx (oaxis2 o)))
     (vx (orad o) * Rabs (vy (oaxis0 o)) + vy (orad o) * Rabs (vy (oaxis1 o)) + vz (orad o) * Rabs (vy (oaxis2 o)))
     (vx (orad o) * Rabs (vz (oaxis0 o)) + vy (orad o) * Rabs (vz (oaxis1 o)) + vz (orad o) * Rabs (vz (oaxis2 o))).
Definition obb_ok (o : obb R) : Prop := 0 <= vx (orad o) /\ 0 <= vy (orad o) /\ 0 <= vz (orad o).
Lemma mul_abs_bound x a r : - r <= x <= r -> - (r * Rabs a) <= x * a <= r * Rabs a.
Proof. intros H. unfold Rabs. destruct (Rcase_abs a); nra. Qed.
Definition sgn (a : R) : R := if Rle_dec 0 a then 1 else -1.
Lemma sgn_abs a : sgn a * a = Rabs a.
Proof. unfold sgn, Rabs. destruct (Rle_dec 0 a), (Rcase_abs a); lra. Qed.
Lemma sgn_b r a : 0 <= r -> - r <= r * sgn a <= r /\ - r <= - (r * sgn a) <= r.
Proof. unfold sgn. destruct (Rle_dec 0 a); lra. Qed.
Lemma tight_obb o : obb_ok o -> tight (in_obb o) (Box (minus (opos o) (obb_half o)) (plus (opos o) (obb_half o))).
Proof.
  intros (R1 & R2 & R3). unfold tight, in_box. cbn [minPoint maxPoint]. split.
  { intros p (x & y & z & X & Y & Z & ->). unfold obb_half, minus, plus, scale. cbn [vx vy vz].
    repeat split;
    repeat match goal with |- context [?r * Rabs ?a] =>
      lazymatch goal with H : - (r * Rabs a) <= _ |- _ => fail | _ => idtac end;
      first [ pose proof (mul_abs_bound x a r X) | pose proof (mul_abs_bound y a r Y) | pose proof (mul_abs_bound z a r Z) ];
      let k := fresh "k" in set (k := r * Rabs a) in *; clearbody k end; lra. }
  assert (G : forall a b c, in_obb o (plus (opos o) (plus (scale (vx (orad o) * sgn a) (oaxis0 o)) (plus (scale (vy (orad o) * sgn b) (oaxis1 o)) (scale (vz (orad o) * sgn c) (oaxis2 o))))) /\
              in_obb o (plus (opos o) (plus (scale (- (vx (orad o) * sgn a)) (oaxis0 o)) (plus (scale (- (vy (orad o) * sgn b)) (oaxis1 o)) (scale (- (vz (orad o) * sgn c)) (oaxis2 o)))))).
  { intros a b c. split; do 3 eexists; (split; [|split; [|split; [|reflexivity]]]); apply sgn_b; assumption. }
  assert (GX := G (vx (oaxis0 o)) (vx (oaxis1 o)) (vx (oaxis2 o))). assert (GY := G (vy (oaxis0 o)) (vy (oaxis1 o)) (vy (oaxis2 o))).
  assert (GZ := G (vz (oaxis0 o)) (vz (oaxis1 o)) (vz (oaxis2 o))). clear G.
  destruct GX as [X1 X2], GY as [Y1 Y2], GZ as [Z1 Z2].
  split; [eexists; split; [exact X2|]|
  split; [eexists; split; [exact X1|]|
  split; [eexists; split; [exact Y2|]|
  split; [eexists; split; [exact Y1|]|
  split; [eexists; split; [exact Z2|]|
          eexists; split; [exact Z1|]]]]]];
  unfold plus, minus, scale, obb_half; cbn [vx vy vz]; rewrite <- !sgn_abs; ring.
Qed.
