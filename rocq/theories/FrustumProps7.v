(** C85 continued: containment, aspect ratios, screen coordinates; C86: plane-bounded volumes. *)
From Coq Require Import Reals Psatz List Bool Permutation.
From Verif Require Import Num NumR ScalarModel ScalarProofs Vec3Model GeoTypes GeoSpec GeoLemmas Vec3Props AabbModel AabbSpec AabbProofs AabbProps AabbProps2 MatModel MatSpec MatProofs MatProofs2 LineModel LineSpec LineProofs LineProofs2
  RotModel RotSpec RotProofs PlaneModel PlaneSpec PlaneProps SphereSpec ObbModel ObbProps ObbProps4 Vec2Model FrustumModel FrustumSpec FrustumProps FrustumProps2 FrustumProps3 FrustumProps4 FrustumProps5 FrustumProps6.
Import ListNotations.
Open Scope R_scope.
Ltac Zify.zify_post_hook ::= idtac.

(** The region, widened by a thousandth of the cross section to the sides, and to the front and back by what a thousandth of the viewport depth amounts to. *)
Definition loose (f : frustum R) (p : pt) : Prop :=
  let d := depth f p in let e := (ffar f - fnear f) / 1000 in
  Rabs (view_x f p) <= 1001 / 1000 * half_w f d /\ Rabs (view_y f p) <= 1001 / 1000 * half_h f d /\
  match ftype f with
  | PerspectiveFrustum => (1 - zlow f) * fnear f * ffar f <= d * ((1 - zlow f) * ffar f + e) /\ d * ((1 - zlow f) * fnear f - e) <= (1 - zlow f) * fnear f * ffar f
  | _ => (1 - zlow f) * (fnear f - d) <= e /\ (1 - zlow f) * (d - ffar f) <= e
  end.
Lemma contains_q f p q : fspace f <> FrustumSpaceInvalid -> Frustum_Project f p = Some q ->
  (Frustum_Contains f p = true <-> (-1001 / 1000 <= vx q <= 1001 / 1000) /\ (-1001 / 1000 <= vy q <= 1001 / 1000) /\ zlow f - 1 / 1000 <= vz q <= 1001 / 1000).
Proof.
  intros S E. unfold Frustum_Contains. rewrite E. unfold zlow. destruct (fspace f); [contradiction| |]; rewrite !andb_true_iff; change (@nleb R Num_R) with Rleb; rewrite !Rleb_true, ?nlit_R; rsimpl; rewrite ?nlit_R; split; intros; repeat split; lra.
Qed.
Lemma abs_div x w k : 0 < w -> (- k <= x / w <= k <-> Rabs x <= k * w).
Proof.
  intros W. assert (E : x = x / w * w) by (field; lra). set (y := x / w) in *. clearbody y. subst x. split.
  - intros. apply Rabs_le. nra.
  - intros H. apply Rabs_def2 in H || idtac. pose proof (Rle_abs (y * w)). pose proof (Rle_abs (- (y * w))). rewrite Rabs_Ropp in *. split; nra.
Qed.
Lemma contains_loose f p : ready f -> (ftype f = PerspectiveFrustum -> 1 / 1000000 < depth f p) -> (Frustum_Contains f p = true <-> loose f p).
Proof.
  intros RD D. pose proof RD as (K & _ & _ & _ & _ & _ & S & _). pose proof K as (_ & _ & _ & N & T).
  assert (W : 0 < half_w f (depth f p) /\ 0 < half_h f (depth f p)).
  { unfold half_w, half_h. destruct (ftype f); [contradiction|lra|]. specialize (D eq_refl). pose proof (tan_half _ (proj1 T)). pose proof (tan_half _ (proj2 T)). split; apply Rmult_lt_0_compat; lra. }
  rewrite (contains_q f p _ S (project_R f p RD ltac:(intros E; specialize (D E); rewrite Rabs_right; lra))). cbn [vx vy vz]. replace (-1001 / 1000) with (- (1001 / 1000)) by lra. rewrite !abs_div by apply W. unfold loose.
  assert (Z : zlow f - 1 / 1000 <= clip_depth f (depth f p) <= 1001 / 1000 <-> match ftype f with
    | PerspectiveFrustum => (1 - zlow f) * fnear f * ffar f <= depth f p * ((1 - zlow f) * ffar f + (ffar f - fnear f) / 1000) /\ depth f p * ((1 - zlow f) * fnear f - (ffar f - fnear f) / 1000) <= (1 - zlow f) * fnear f * ffar f
    | _ => (1 - zlow f) * (fnear f - depth f p) <= (ffar f - fnear f) / 1000 /\ (1 - zlow f) * (depth f p - ffar f) <= (ffar f - fnear f) / 1000 end); [|rewrite Z; tauto].
  unfold clip_depth. set (d := depth f p) in *. set (z := zlow f). clearbody z d. destruct (ftype f) eqn:TY; [contradiction| |].
  - set (a := ffar f - fnear f). assert (A : 0 < a) by (unfold a; lra). assert (E : forall x, x = x / a * a) by (intros; field; lra).
    replace ((1 - z) * (d - fnear f) / (ffar f - fnear f)) with (((1 - z) * (d - fnear f)) / a) by reflexivity. pose proof (E ((1 - z) * (d - fnear f))) as E1. set (y := (1 - z) * (d - fnear f) / a) in *. clearbody y. unfold a in *. split; intros; split; nra.
  - specialize (D eq_refl). set (a := (ffar f - fnear f) * d). assert (A : 0 < a) by (unfold a; nra). set (m := ffar f * (d - fnear f) + z * fnear f * (ffar f - d)). assert (E : m = m / a * a) by (field; lra). set (y := m / a) in *. clearbody y.
    assert (Q1 : zlow f = zlow f) by reflexivity. clear Q1.
    assert (L : z - 1 / 1000 <= y <-> (z - 1 / 1000) * a <= m) by (rewrite E; split; intros; [apply Rmult_le_compat_r; lra|apply Rmult_le_reg_r in H; lra]).
    assert (U : y <= 1001 / 1000 <-> m <= 1001 / 1000 * a) by (rewrite E; split; intros; [apply Rmult_le_compat_r; lra|apply Rmult_le_reg_r in H; lra]).
    rewrite L, U. unfold m, a. split; intros; split; lra.
Qed.
Lemma frustum_loose f p : frustum_ok f -> in_frustum f p -> loose f p.
Proof.
  intros K (D & X & Y). pose proof K as (_ & _ & _ & N & T). assert (Z : zlow f < 1) by (unfold zlow; destruct (fspace f); lra). unfold loose. split; [apply Rabs_le; lra|]. split; [apply Rabs_le; lra|].
  set (d := depth f p) in *. set (z := zlow f) in *. clearbody z d. destruct (ftype f); [contradiction| |].
  - split; nra.
  - assert (0 < (1 - z)) by lra. assert (0 <= (1 - z) * ffar f * (d - fnear f)) by (apply Rmult_le_pos; [apply Rmult_le_pos|]; lra). assert (0 <= (1 - z) * fnear f * (ffar f - d)) by (apply Rmult_le_pos; [apply Rmult_le_pos|]; lra). assert (0 <= d * (ffar f - fnear f)) by (apply Rmult_le_pos; lra). split; lra.
Qed.
Lemma loose_convex f : frustum_ok f -> convex (loose f).
Proof.
  intros K x y k X Y T. destruct (half_affine f K) as (a & b & _ & _ & _ & EW), (half_affine_h f K) as (c & d & _ & _ & _ & EH).
  set (q := plus x (scale k (minus y x))). assert (V : view_x f q = view_x f x + k * (view_x f y - view_x f x) /\ view_y f q = view_y f x + k * (view_y f y - view_y f x) /\ depth f q = depth f x + k * (depth f y - depth f x)) by (unfold view_x, view_y, depth, q, dot, plus, scale, minus; cbn [vx vy vz]; repeat split; ring).
  destruct V as (VX & VY & VD). unfold loose in *. rewrite VX, VY, VD. clear VX VY VD. rewrite !EW, !EH in *. set (x0 := view_x f x) in *. set (x1 := view_y f x) in *. set (x2 := depth f x) in *. set (y0 := view_x f y) in *. set (y1 := view_y f y) in *. set (y2 := depth f y) in *. clearbody x0 x1 x2 y0 y1 y2.
  assert (C : forall u v, 0 <= u -> 0 <= v -> 0 <= u + k * (v - u)) by (intros; nra).
  assert (AC : forall u v m n, Rabs u <= m -> Rabs v <= n -> Rabs (u + k * (v - u)) <= m + k * (n - m)).
  { intros u v m n U V. replace (u + k * (v - u)) with ((1 - k) * u + k * v) by ring. eapply Rle_trans; [apply Rabs_triang|]. rewrite !Rabs_mult, (Rabs_right (1 - k)), (Rabs_right k) by lra. nra. }
  destruct X as (X0 & X1 & X2), Y as (Y0 & Y1 & Y2). split; [eapply Rle_trans; [apply AC; eassumption|lra]|]. split; [eapply Rle_trans; [apply AC; eassumption|lra]|].
  assert (CL : forall u v m n, u <= m -> v <= n -> u + k * (v - u) <= m + k * (n - m)) by (intros; nra).
  set (z := zlow f) in *. clearbody z. destruct (ftype f); (split; [pose proof (CL _ _ _ _ (proj1 X2) (proj1 Y2)); lra|pose proof (CL _ _ _ _ (proj2 X2) (proj2 Y2)); lra]).
Qed.
(** Containment: every point of the region is accepted; every accepted point in front of the eye lies in the slightly widened region, exactly; when the far distance is at most a hundred times the near distance
    this is between 0.999 of the near distance and 1.11 of the far distance.  Bodies given by their corners are contained if and only if their corners are, and then lie in the widened region altogether. *)
Theorem C85_contains (f : frustum R) : ready f -> 1 / 1000000 < fnear f ->
  (forall p, in_frustum f p -> Frustum_Contains f p = true) /\
  (forall p, (ftype f = PerspectiveFrustum -> 1 / 1000000 < depth f p) -> (Frustum_Contains f p = true <-> loose f p)) /\
  (forall p, (ftype f = PerspectiveFrustum -> 1 / 1000000 < depth f p) -> Frustum_Contains f p = true -> ffar f <= 100 * fnear f ->
     Rabs (view_x f p) <= 1001 / 1000 * half_w f (depth f p) /\ Rabs (view_y f p) <= 1001 / 1000 * half_h f (depth f p) /\ fnear f - (ffar f - fnear f) / 1000 <= depth f p /\ depth f p <= 111 / 100 * ffar f /\ (ftype f = PerspectiveFrustum -> 999 / 1000 * fnear f <= depth f p)) /\
  (forall pts, (forall p, In p pts -> in_frustum f p) -> Frustum_ContainsVertices f pts = true) /\
  (forall pts, (ftype f = PerspectiveFrustum -> forall p, In p pts -> 1 / 1000000 < depth f p) -> Frustum_ContainsVertices f pts = true -> forall q, in_hull pts q -> loose f q) /\
  (forall pts p, In p pts -> Frustum_Contains f p = false -> Frustum_ContainsVertices f pts = false).
Proof.
  intros RD NE. pose proof RD as (K & _). pose proof K as (_ & _ & _ & N & T). assert (Z : zlow f = 0 \/ zlow f = -1) by (unfold zlow; destruct (fspace f); auto).
  assert (P1 : forall p, in_frustum f p -> Frustum_Contains f p = true) by (intros p P; apply contains_loose; [exact RD| |now apply frustum_loose]; intros _; destruct P; lra).
  split; [exact P1|]. split; [intros; now apply contains_loose|]. split; [|split; [|split]].
  - intros p D C F. apply contains_loose in C; [|exact RD|exact D]. destruct C as (C1 & C2 & C3). split; [exact C1|]. split; [exact C2|]. set (d := depth f p) in *. clearbody d. destruct (ftype f) eqn:TY; [contradiction| |].
    + assert ((fnear f - d) <= (ffar f - fnear f) / 1000) by (destruct Z as [E|E]; rewrite E in C3; nra). assert (d - ffar f <= (ffar f - fnear f) / 1000) by (destruct Z as [E|E]; rewrite E in C3; nra). split; [lra|]. split; [lra|discriminate].
    + specialize (D eq_refl). assert (L : 999 / 1000 * fnear f <= d).
      { destruct (Rle_or_lt (999 / 1000 * fnear f) d) as [L|L]; [exact L|exfalso]. destruct C3 as (C3 & _). assert (d * ffar f <= 999 / 1000 * fnear f * ffar f) by (apply Rmult_le_compat_r; lra). assert (d * (ffar f - fnear f) <= d * ffar f) by (apply Rmult_le_compat_l; lra). assert (0 < fnear f * ffar f) by nra. destruct Z as [E|E]; rewrite E in C3; lra. }
      split; [nra|]. split; [|intros; exact L]. destruct C3 as (_ & C3). assert (Q : d * fnear f * (901 / 1000) <= fnear f * ffar f).
      { assert (d * (ffar f - fnear f) <= d * (99 * fnear f)) by (apply Rmult_le_compat_l; lra). assert (0 < d * fnear f) by nra. destruct Z as [E|E]; rewrite E in C3; lra. }
      assert (d * (901 / 1000) <= ffar f) by (apply Rmult_le_reg_l with (fnear f); lra). lra.
  - intros pts A. unfold Frustum_ContainsVertices. apply forallb_forall. intros p P. now apply P1, A.
  - intros pts D C q Q. apply Q; [now apply loose_convex|]. intros v V. unfold Frustum_ContainsVertices in C. rewrite forallb_forall in C. apply contains_loose; [exact RD| |now apply C]. intros E. now apply D.
  - intros pts p P C. unfold Frustum_ContainsVertices. destruct (forallb (Frustum_Contains f) pts) eqn:E; [|reflexivity]. rewrite forallb_forall in E. specialize (E p P). congruence.
Qed.
Print Assumptions C85_contains.

(** Any camera with a right angle of view. *)
Definition lens (n d : R) (sp : frustumSpace) (h : frustumHandedness) : list fop := [OpKind sp h; OpDistances n d; OpFrame (V3 0 0 0) (V3 0 0 (-1)) (V3 0 1 0); OpPerspective (PI / 2) (PI / 2)].
Definition right_angle (n d : R) sp h : frustum R := fold_left fstep (lens n d sp h) (Frustum_new 0).
Lemma lens_ready n d sp h : 0 < n < d -> sp <> FrustumSpaceInvalid -> h <> FrustumHandednessInvalid -> ready (right_angle n d sp h).
Proof.
  intros ND S H. split; [|split; [apply C85_caches|]]; [|repeat split; assumption].
  pose proof PI_RGT_0. split; [unfold unitv, dot; cbn; ring|]. split; [unfold unitv, dot; cbn; ring|]. split; [unfold orth, dot; cbn; ring|]. split; [exact ND|]. cbn. lra.
Qed.
Example C85_witness : ready (right_angle 1 10 FrustumSpaceGL FrustumRightHanded) /\ Frustum_Contains (right_angle 1 10 FrustumSpaceGL FrustumRightHanded) (V3 3 (-4) (-5)) = true /\
  Frustum_Contains (right_angle 1 10 FrustumSpaceGL FrustumRightHanded) (V3 3 (-4) (-2)) = false.
Proof.
  set (f := right_angle 1 10 FrustumSpaceGL FrustumRightHanded). assert (RD : ready f) by (apply lens_ready; [lra|discriminate|discriminate]). split; [exact RD|].
  assert (TN : tan (PI / 2 / 2) = 1) by (replace (PI / 2 / 2) with (PI / 4) by field; apply tan_PI4).
  assert (NE : 1 / 1000000 < fnear f) by (cbn; lra). destruct (C85_contains f RD NE) as (A & B & _). split.
  - apply A. unfold in_frustum, half_w, half_h, depth, view_x, view_y, fright, xprod, dot, minus; cbn; rewrite ?TN; lra.
  - destruct (Frustum_Contains f _) eqn:E; [|reflexivity]. apply B in E; [|intros _; unfold depth, dot, minus; cbn; lra]. destruct E as (_ & E & _). unfold half_h, view_y, depth, dot, minus in E. cbn in E. rewrite TN in E. exfalso. pose proof (Rle_abs (- (( -4 - 0) * 1))). rewrite Rabs_Ropp in *. revert E. match goal with |- Rabs ?u <= ?v -> False => intros E; pose proof (Rle_abs (- u)); rewrite Rabs_Ropp in *; lra end.
Qed.
(** Whether a point behind the eye, or one far beyond the far plane, is rejected depends on the ratio of the plane distances: with a near distance of 1/10 and a far distance of 1000, points of any large depth, in front or behind,
    are accepted.  So is the eye itself. *)
Theorem C85_contains_behind_refuted : exists f, ready f /\ fnear f = 1 / 10 /\ ffar f = 1000 /\
  (forall d, 10000 <= Rabs d -> exists p, depth f p = d /\ ~ in_frustum f p /\ Frustum_Contains f p = true) /\ depth f (fpos f) = 0 /\ Frustum_Contains f (fpos f) = true.
Proof.
  set (f := right_angle (1 / 10) 1000 FrustumSpaceGL FrustumRightHanded). assert (RD : ready f) by (apply lens_ready; [lra|discriminate|discriminate]). exists f. split; [exact RD|]. split; [reflexivity|]. split; [reflexivity|].
  assert (TN : tan (PI / 2 / 2) = 1) by (replace (PI / 2 / 2) with (PI / 4) by field; apply tan_PI4). split; [|split].
  - intros d D. exists (V3 0 0 (- d)). assert (E : depth f (V3 0 0 (- d)) = d) by (unfold depth, dot, minus; cbn; ring). split; [exact E|]. assert (DD : d <= -10000 \/ 10000 <= d) by (unfold Rabs in D; destruct (Rcase_abs d); lra).
    split; [intros (A & _); rewrite E in A; cbn in A; lra|]. assert (ND : d <> 0) by lra.
    rewrite (contains_q f _ _ ltac:(discriminate) (project_R f _ RD ltac:(intros _; rewrite E; lra))). rewrite E. cbn [vx vy vz].
    assert (X : view_x f (V3 0 0 (- d)) = 0) by (unfold view_x, fright, xprod, dot, minus; cbn; ring). assert (Y : view_y f (V3 0 0 (- d)) = 0) by (unfold view_y, dot, minus; cbn; ring). rewrite X, Y. unfold Rdiv at 2 5. rewrite !Rmult_0_l. split; [lra|]. split; [lra|].
    unfold clip_depth. change (zlow f) with (-1). change (ftype f) with PerspectiveFrustum. change (ffar f) with 1000. change (fnear f) with (1 / 10). cbv iota.
    replace ((1000 * (d - 1 / 10) + -1 * (1 / 10) * (1000 - d)) / ((1000 - 1 / 10) * d)) with (10001 / 9999 - 2000 / 9999 * / d) by (field; exact ND).
    assert (I : - (1 / 10000) <= / d <= 1 / 10000).
    { destruct DD as [DD|DD]. - assert (/ - d <= / 10000) by (apply Rinv_le_contravar; lra). assert (/ d < 0) by (apply Rinv_lt_0_compat; lra). rewrite Rinv_opp in *. lra.
      - assert (/ d <= / 10000) by (apply Rinv_le_contravar; lra). assert (0 < / d) by (apply Rinv_0_lt_compat; lra). lra. }
    lra.
  - unfold depth, dot, minus. cbn. ring.
  - destruct (project_clip f (fpos f) RD) as (M & EM & z & E). assert (P : Frustum_Project f (fpos f) = Some (V3 0 0 (- (200 / (1000 - 1 / 10))))).
    { unfold Frustum_Project. rewrite EM. cbn [option_map]. f_equal. change (x34 (fpos f) n1) with (hpoint (fpos f)). rewrite E. change (ftype f) with PerspectiveFrustum. cbv iota.
      assert (D0 : depth f (fpos f) = 0) by (unfold depth, dot, minus; cbn; ring). assert (X : view_x f (fpos f) = 0) by (unfold view_x, fright, xprod, dot, minus; cbn; ring). assert (Y : view_y f (fpos f) = 0) by (unfold view_y, dot, minus; cbn; ring). rewrite D0, X, Y.
      unfold NormalizeW, persp_clip. cbn [w3]. rewrite Abs_R, Rabs_R0. change (nltb (nlit 1 1000000) 0) with (Rltb (nlit 1 1000000) 0). rewrite (proj2 (Rltb_false _ _)) by (rewrite nlit_R; lra). unfold xyz4. cbn [w0 w1 w2 vx vy vz].
      change (zlow f) with (-1). change (ffar f) with 1000. change (fnear f) with (1 / 10). apply vec_ext; cbn [vx vy vz]; [unfold Rdiv; ring|unfold Rdiv; ring|field]. }
    rewrite (contains_q f _ _ ltac:(discriminate) P). cbn [vx vy vz]. change (zlow f) with (-1). lra.
Qed.
Print Assumptions C85_contains_behind_refuted.
Lemma plain_camera : exists f, ready f /\ fpos f = V3 0 0 0 /\ ffront f = V3 0 0 (-1) /\ fup f = V3 0 1 0 /\ fhand f = FrustumRightHanded /\ ftype f = PerspectiveFrustum /\ fhw f = PI / 2 /\ fvh f = PI / 2 /\ fnear f = 1 /\ ffar f = 10.
Proof. exists (right_angle 1 10 FrustumSpaceGL FrustumRightHanded). split; [apply lens_ready; [lra|discriminate|discriminate]|]. repeat split. Qed.
(** Moving a frustum with [Translate] or [Transform] leaves the matrices behind: containment is still decided for the old place. *)
Theorem C85_stale_refuted :
  (forall (f : frustum R) off p, Frustum_Contains (Frustum_Translate f off) p = Frustum_Contains f p) /\ (forall (f : frustum R) m p, Frustum_Contains (Frustum_Transform3 f m) p = Frustum_Contains f p) /\ (forall (f : frustum R) m p, Frustum_Contains (Frustum_Transform34 f m) p = Frustum_Contains f p) /\
  exists f off p, ready f /\ in_frustum (Frustum_Translate f off) p /\ Frustum_Contains (Frustum_Translate f off) p = false /\ ~ coherent (Frustum_Translate f off).
Proof.
  assert (TC : forall (f : frustum R) off p, Frustum_Contains (Frustum_Translate f off) p = Frustum_Contains f p) by reflexivity.
  split; [exact TC|]. split; [intros f m p; unfold Frustum_Transform3, frustumTransform; destruct (Normalize _); reflexivity|]. split; [intros f m p; unfold Frustum_Transform34, frustumTransform; destruct (Normalize _); reflexivity|].
  destruct plain_camera as (f & RD & EP & EF & EU & EH & ET & EW & EV & EN & ED).
  assert (TN : tan (PI / 2 / 2) = 1) by (replace (PI / 2 / 2) with (PI / 4) by field; apply tan_PI4). assert (NE : 1 / 1000000 < fnear f) by (rewrite EN; lra). destruct (C85_contains f RD NE) as (A & B & _).
  exists f, (V3 100 0 0), (V3 100 0 (-5)). split; [exact RD|]. split; [|split].
  - unfold in_frustum, half_w, half_h, depth, view_x, view_y, fright, xprod, dot, minus, Frustum_Translate. cbn [fpos ffront fup fnear ffar fhand ftype fhw fvh]. rewrite EP, EF, EU, EH, ET, EW, EV, EN, ED, TN. rewrite vadd_R. unfold plus. cbn [vx vy vz]. lra.
  - rewrite TC. destruct (Frustum_Contains f (V3 100 0 (-5))) eqn:E; [|reflexivity]. apply B in E; [|intros _; unfold depth, dot, minus; rewrite EP, EF; cbn [vx vy vz]; lra]. destruct E as (E & _). unfold half_w, view_x, fright, xprod, depth, dot, minus in E. rewrite EP, EF, EU, EH, ET, EW, TN in E. cbn [vx vy vz] in E. exfalso.
    revert E. match goal with |- Rabs ?u <= ?v -> False => intros E; pose proof (Rle_abs u); lra end.
  - intros (W & _). destruct RD as (_ & (CW & _) & HP & HF & HU & _). unfold Frustum_Translate, ComputeWorldMatrix in W. cbn [worldMatrix hasPos hasFront hasUp] in W. rewrite CW in W. unfold ComputeWorldMatrix in W. rewrite HP, HF, HU in W. cbn [andb] in W. apply (f_equal (fun o => match o with Some m => vx (trans34 m) | None => 0 end)) in W. unfold worldOf in W. cbn [trans34 fpos] in W. rewrite vadd_R in W. unfold plus in W. cbn [vx] in W. lra.
Qed.
Print Assumptions C85_stale_refuted.

(** ** Aspect ratio *)
Lemma Atan_R x : Atan x = atan x.
Proof. unfold Atan, natan2. cbn. unfold Ratan2. destruct (Rlt_dec 0 1); [f_equal; field|lra]. Qed.
Lemma atan_fov x : 0 < x -> 0 < 2 * atan x < PI.
Proof. intros X. pose proof (atan_bound x). assert (0 < atan x) by (rewrite <- atan_0; now apply atan_increasing). lra. Qed.
Lemma tan_fov x : tan (2 * atan x / 2) = x.
Proof. replace (2 * atan x / 2) with (atan x) by field. apply tan_atan. Qed.
Theorem C85_aspect (f : frustum R) : 
  (forall fov a, 0 < fov < PI -> 0 < a -> let g := SetHorizontalFovAndAspectRatio f fov a in ftype g = PerspectiveFrustum /\ fhw g = fov /\ 0 < fvh g < PI /\ AspectRatio g = a) /\
  (forall fov a, 0 < fov < PI -> 0 < a -> let g := SetVerticalFovAndAspectRatio f fov a in ftype g = PerspectiveFrustum /\ fvh g = fov /\ 0 < fhw g < PI /\ AspectRatio g = a) /\
  (frustum_ok f -> ftype f = PerspectiveFrustum -> AspectRatio f = NearPlaneWidth f / NearPlaneHeight f /\ forall d, 0 < d -> half_w f d = AspectRatio f * half_h f d).
Proof.
  assert (TH : forall x, 0 < x < PI -> 0 < tan (x / 2)) by apply tan_half. split; [|split].
  - intros fov a F A g. split; [reflexivity|]. split; [reflexivity|]. pose proof (TH fov F). assert (0 < tan (fov / 2) / a) by (apply Rdiv_lt_0_compat; lra).
    assert (V : fvh g = 2 * atan (tan (fov / 2) / a)) by (unfold g, SetHorizontalFovAndAspectRatio, setLens, ProjectionMatrixChanged, setMatrices; cbn [fvh]; rewrite Atan_R, Tan_R; rsimpl; reflexivity). assert (H' : fhw g = fov) by reflexivity.
    split; [rewrite V; now apply atan_fov|]. unfold AspectRatio. rewrite !Tan_R, V, H', tan_fov. rsimpl. field. lra.
  - intros fov a F A g. split; [reflexivity|]. split; [reflexivity|]. pose proof (TH fov F). assert (0 < tan (fov / 2) * a) by (apply Rmult_lt_0_compat; lra).
    assert (V : fhw g = 2 * atan (tan (fov / 2) * a)) by (unfold g, SetVerticalFovAndAspectRatio, setLens, ProjectionMatrixChanged, setMatrices; cbn [fhw]; rewrite Atan_R, Tan_R; rsimpl; reflexivity). assert (H' : fvh g = fov) by reflexivity.
    split; [rewrite V; now apply atan_fov|]. unfold AspectRatio. rewrite !Tan_R, V, H', tan_fov. rsimpl. field. lra.
  - intros K E. destruct (near_width f K) as (NW & NH). rewrite NW, NH. pose proof K as (_ & _ & _ & N & T). unfold AspectRatio, half_w, half_h. rewrite !Tan_R, E in *. pose proof (TH _ (proj1 T)). pose proof (TH _ (proj2 T)). rsimpl. split; [field; lra|]. intros d D. field. lra.
Qed.
Print Assumptions C85_aspect.
(** For an orthographic frustum [AspectRatio] takes the tangents of its width and height as if they were angles. *)
Theorem C85_aspect_refuted : exists f, frustum_ok f /\ ftype f = OrthographicFrustum /\ NearPlaneWidth f / NearPlaneHeight f = 1 / 3 /\ AspectRatio f = -1.
Proof.
  pose proof PI_RGT_0 as PP. set (f := SetOrthographic (camera OrthographicFrustum FrustumSpaceGL FrustumRightHanded) (PI / 2) (3 * (PI / 2))). exists f.
  split; [split; [unfold unitv, dot; cbn; ring|]; split; [unfold unitv, dot; cbn; ring|]; split; [unfold orth, dot; cbn; ring|]; split; [cbn; lra|]; cbn; lra|]. split; [reflexivity|]. split.
  - change (PI / 2 / (3 * (PI / 2)) = 1 / 3). field. lra.
  - unfold AspectRatio. rewrite !Tan_R. change (fhw f) with (PI / 2). change (fvh f) with (3 * (PI / 2)). replace (PI / 2 / 2) with (PI / 4) by field. replace (3 * (PI / 2) / 2) with (PI - PI / 4) by field. rewrite tan_PI4.
    assert (TT : tan (PI - PI / 4) = -1) by (unfold tan; rewrite sin_PI_x, <- cos_neg; replace (- (PI - PI / 4)) with (PI / 4 - PI) by ring; unfold Rminus; rewrite cos_plus, cos_neg, cos_PI, sin_neg, sin_PI, sin_PI4, cos_PI4; field; apply Rgt_not_eq, sqrt_lt_R0; lra). rewrite TT. rsimpl. field.
Qed.
Print Assumptions C85_aspect_refuted.

(** ** Screen coordinates *)
(** The pixel coordinates run from 0 to size - 1, x to the right and y downwards, and the two mappings undo each other. *)
Theorem C85_screen (w h : R) : w <> 1 -> h <> 1 ->
  (forall x y, ScreenToViewportSpace (x2 (ViewportToScreenSpace x y w h)) (y2 (ViewportToScreenSpace x y w h)) w h = V2 x y) /\
  (forall x y, ViewportToScreenSpace (x2 (ScreenToViewportSpace x y w h)) (y2 (ScreenToViewportSpace x y w h)) w h = V2 x y) /\
  ViewportToScreenSpace (-1) 1 w h = V2 0 0 /\ ViewportToScreenSpace 1 (-1) w h = V2 (w - 1) (h - 1) /\ ViewportToScreenSpace 0 0 w h = V2 ((w - 1) / 2) ((h - 1) / 2).
Proof.
  intros W H. unfold ScreenToViewportSpace, ViewportToScreenSpace. cbn [x2 y2]. rsimpl. repeat split; intros; f_equal; field; lra.
Qed.
Print Assumptions C85_screen.
