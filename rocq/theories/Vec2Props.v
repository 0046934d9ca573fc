(** Theorems about float2 (C70) and AABB2D (C71) over R. *)
From Coq Require Import Reals Lra Psatz Bool List.
From Verif Require Import Num NumR ScalarModel ScalarProofs Vec2Model Vec2Spec.
Import ListNotations.
Open Scope R_scope.

Ltac u2 := cbv [p2 add2 sub2 neg2 muls2 smul2 divs2 mul2 div2 LengthSq2 Dot2 Perp2 PerpDot2 dt pl mi sc area2 o2 x2 y2] in *; rsimpl.
Lemma v2_ext (a b : p2) : x2 a = x2 b -> y2 a = y2 b -> a = b.
Proof. destruct a, b. cbn. now intros -> ->. Qed.
Lemma dt_pos a : 0 <= dt a a. Proof. unfold dt. nra. Qed.
Lemma nrm_sq a : nrm a * nrm a = dt a a. Proof. apply sqrt_sqrt, dt_pos. Qed.
Lemma nrm_pos a : 0 <= nrm a. Proof. apply sqrt_pos. Qed.
Lemma nrm_sc k a : nrm (sc k a) = Rabs k * nrm a.
Proof.
  unfold nrm. replace (dt (sc k a) (sc k a)) with (k * k * dt a a) by (destruct a; u2; ring). rewrite sqrt_mult by (try apply dt_pos; nra).
  f_equal. apply sqrt_Rsqr_abs.
Qed.
Lemma nrm_1 a : nrm a = 1 <-> dt a a = 1.
Proof. split; intros E; [rewrite <- nrm_sq, E; ring|unfold nrm; rewrite E; apply sqrt_1]. Qed.
Lemma dt_comm a b : dt a b = dt b a. Proof. unfold dt; ring. Qed.
Lemma dt_zero a : dt a a = 0 -> a = o2. Proof. destruct a as [x y]. u2. intros E. f_equal; nra. Qed.
Lemma Min_R (x y : R) : Min x y = Rmin x y. Proof. unfold Min, Rmin; rsimpl; destruct (Rleb_spec x y), (Rle_dec x y); lra. Qed.
Lemma Max_R (x y : R) : Max x y = Rmax x y. Proof. unfold Max, Rmax; rsimpl; destruct (Rleb_spec y x), (Rle_dec x y); lra. Qed.
Ltac mm := unfold Rmax, Rmin in *; repeat match goal with
  | |- context [Rle_dec ?a ?b] => lazymatch a with context [Rle_dec _ _] => fail | _ => lazymatch b with context [Rle_dec _ _] => fail | _ => destruct (Rle_dec a b) end end
  end.
Lemma Clamp_R (x lo hi : R) : lo <= hi -> Clamp x lo hi = Rmax lo (Rmin x hi).
Proof.
  intros L. unfold Clamp. rsimpl. repeat rcase; mm; lra.
Qed.

(** * C70: float2 *)
Theorem C70_length (v a b c : p2) :
  Length2 v = nrm v /\ LengthSq2 v = nrm v * nrm v /\ Distance2 a b = dst a b /\ DistanceSq2 a b = dst a b * dst a b /\
  dst a c <= dst a b + dst b c /\ dst a b = dst b a /\ (dst a b = 0 <-> a = b).
Proof.
  split; [reflexivity|]. split; [rewrite nrm_sq; reflexivity|]. split; [reflexivity|]. split; [unfold dst; rewrite nrm_sq; reflexivity|].
  assert (CS : forall u w, dt u w <= nrm u * nrm w).
  { intros u w. pose proof (nrm_sq u). pose proof (nrm_sq w). pose proof (nrm_pos u). pose proof (nrm_pos w).
    assert (dt u w * dt u w <= (nrm u * nrm w) * (nrm u * nrm w)).
    { replace ((nrm u * nrm w) * (nrm u * nrm w)) with ((nrm u * nrm u) * (nrm w * nrm w)) by ring. rewrite H, H0. clear. destruct u as [a1 a2], w as [b1 b2]. u2. pose proof (Rle_0_sqr (a1 * b2 - a2 * b1)) as Q. unfold Rsqr in Q. nra. }
    destruct (Rle_dec (dt u w) (nrm u * nrm w)); [easy|]. assert (0 <= nrm u * nrm w) by nra. nra. }
  split.
  - unfold dst. specialize (CS (mi a b) (mi b c)). pose proof (nrm_sq (mi a b)). pose proof (nrm_sq (mi b c)). pose proof (nrm_sq (mi a c)).
    pose proof (nrm_pos (mi a b)). pose proof (nrm_pos (mi b c)). pose proof (nrm_pos (mi a c)).
    assert (dt (mi a c) (mi a c) = dt (mi a b) (mi a b) + 2 * dt (mi a b) (mi b c) + dt (mi b c) (mi b c)) by (destruct a, b, c; u2; ring).
    apply Rsqr_incr_0_var; [unfold Rsqr; nra|lra].
  - split; [unfold dst, nrm; f_equal; destruct a, b; u2; ring|]. split.
    + intros E. assert (D : dt (mi a b) (mi a b) = 0) by (rewrite <- nrm_sq; unfold dst in E; rewrite E; ring). apply dt_zero in D. injection D. intros. apply v2_ext; lra.
    + intros ->. unfold dst, nrm. replace (dt (mi b b) (mi b b)) with 0 by (destruct b; u2; ring). apply sqrt_0.
Qed.
Print Assumptions C70_length.
(** Normalisation succeeds from length 1e-3 on (the guard compares the squared length). *)
Theorem C70_normalize (v : p2) :
  (1 / 1000 < nrm v -> Normalize2 v = (sc (/ nrm v) v, nrm v) /\ nrm (Normalized2 v) = 1 /\ sc (nrm v) (Normalized2 v) = v) /\
  (nrm v <= 1 / 1000 -> Normalize2 v = (V2 1 0, 0)).
Proof.
  pose proof (nrm_pos v). pose proof (nrm_sq v) as S. unfold Normalized2, Normalize2. change (LengthSq2 v) with (dt v v). rewrite <- S. rsimpl.
  rewrite sqrt_square by easy. split; intros L.
  - destruct (Rltb_spec (1 / 1000000) (nrm v * nrm v)); [|nra]. cbn [fst].
    assert (E : muls2 v (1 / nrm v) = sc (/ nrm v) v) by (apply v2_ext; unfold muls2, sc; cbn; field; lra). rewrite E.
    split; [easy|]. rewrite nrm_sc. split; [rewrite Rabs_pos_eq; [field; lra|left; apply Rinv_0_lt_compat; lra]|].
    set (k := nrm v) in *. clearbody k. apply v2_ext; destruct v; u2; field; lra.
  - destruct (Rltb_spec (1 / 1000000) (nrm v * nrm v)); [nra|easy].
Qed.
Print Assumptions C70_normalize.
Theorem C70_scale_to_length (v : p2) (len : R) : 0 <= len ->
  (1 / 1000 <= nrm v -> nrm (fst (ScaleToLength2 v len)) = len /\ snd (ScaleToLength2 v len) = nrm v /\ exists k, 0 <= k /\ fst (ScaleToLength2 v len) = sc k v) /\
  (nrm v < 1 / 1000 -> ScaleToLength2 v len = (v, 0)).
Proof.
  intros Hl. pose proof (nrm_pos v). pose proof (nrm_sq v) as S. unfold ScaleToLength2. change (LengthSq2 v) with (dt v v). rewrite <- S. rsimpl.
  rewrite sqrt_square by easy. split; intros L.
  - destruct (Rltb_spec (nrm v * nrm v) (1 / 1000000)); [nra|]. cbn [fst snd].
    assert (E : V2 (x2 v * (len / nrm v)) (y2 v * (len / nrm v)) = sc (len / nrm v) v) by (apply v2_ext; unfold sc; cbn; ring). rewrite E.
    assert (P : 0 <= len / nrm v) by (apply Rmult_le_pos; [easy|left; apply Rinv_0_lt_compat; lra]).
    split; [rewrite nrm_sc, Rabs_pos_eq by easy; field; lra|]. split; [easy|]. now exists (len / nrm v).
  - destruct (Rltb_spec (nrm v * nrm v) (1 / 1000000)); [easy|nra].
Qed.
Print Assumptions C70_scale_to_length.
(** Turning by a quarter: perpendicular, the same length, and on the stated side. *)
Theorem C70_perp (a b c : p2) :
  Dot2 a b = dt a b /\ dt a (Perp2 a) = 0 /\ area2 a (Perp2 a) = nrm a * nrm a /\ nrm (Perp2 a) = nrm a /\
  PerpDot2 a b = area2 a b /\ PerpDot2 a b = Dot2 (Perp2 a) b /\ Rotated90CCW a = Perp2 a /\ Rotated90CW (Rotated90CCW a) = a /\
  area2 a (Rotated90CW a) = - (nrm a * nrm a) /\ nrm (Rotated90CW a) = nrm a /\
  (OrientedCCW a b c = true <-> 0 <= area2 (mi b a) (mi c a)) /\
  PerpDot2 a b * PerpDot2 a b + Dot2 a b * Dot2 a b = nrm a * nrm a * (nrm b * nrm b).
Proof.
  rewrite !nrm_sq. unfold nrm. destruct a as [ax ay], b as [bx by'], c as [cx cy]. unfold Rotated90CW, Rotated90CCW, OrientedCCW. u2.
  split; [easy|]. split; [ring|]. split; [ring|]. split; [f_equal; ring|]. split; [ring|]. split; [ring|]. split; [easy|]. split; [f_equal; ring|].
  split; [ring|]. split; [f_equal; ring|]. split; [|ring]. rewrite Rleb_true. split; intros; lra.
Qed.
Print Assumptions C70_perp.
Theorem C70_project (v d : p2) : d <> o2 ->
  (exists k, ProjectTo2 v d = sc k d) /\ dt (mi v (ProjectTo2 v d)) d = 0 /\
  (nrm d = 1 -> ProjectToNorm2 v d = ProjectTo2 v d /\ fst (Decompose2 v d) = ProjectTo2 v d /\
     pl (fst (Decompose2 v d)) (snd (Decompose2 v d)) = v /\ dt (snd (Decompose2 v d)) d = 0).
Proof.
  intros D. assert (N : dt d d <> 0) by (intros E; apply D; now apply dt_zero).
  assert (E : ProjectTo2 v d = sc (dt v d / dt d d) d) by (apply v2_ext; unfold ProjectTo2; change (LengthSq2 d) with (dt d d); change (Dot2 v d) with (dt v d); unfold divs2, muls2, sc; cbn [x2 y2]; rsimpl; field; easy).
  rewrite E. split; [now exists (dt v d / dt d d)|].
  assert (P : forall k, dt (mi v (sc k d)) d = dt v d - k * dt d d) by (intros; destruct v, d; u2; ring).
  split; [rewrite P; field; easy|]. intros U. apply nrm_1 in U. rewrite U. unfold Decompose2, ProjectToNorm2. cbn [fst snd]. change (Dot2 v d) with (dt v d).
  replace (dt v d / 1) with (dt v d) by field. split; [apply v2_ext; unfold muls2, sc; cbn; rsimpl; ring|]. split; [reflexivity|].
  split; [apply v2_ext; destruct v, d; u2; ring|]. change (sub2 v (smul2 (dt v d) d)) with (mi v (sc (dt v d) d)). rewrite P, U. ring.
Qed.
Print Assumptions C70_project.
Theorem C70_reflect (v n : p2) : nrm n = 1 ->
  Reflect2 (Reflect2 v n) n = v /\ nrm (Reflect2 v n) = nrm v /\ dt (Reflect2 v n) n = dt v n /\ area2 n (Reflect2 v n) = - area2 n v.
Proof.
  intros U. apply nrm_1 in U.
  assert (E : forall w, Reflect2 w n = mi (sc (2 * dt w n) n) w) by (intros; apply v2_ext; unfold Reflect2, ProjectToNorm2; destruct w, n; u2; ring).
  rewrite !E. assert (D : dt (mi (sc (2 * dt v n) n) v) n = dt v n).
  { replace (dt (mi (sc (2 * dt v n) n) v) n) with (2 * dt v n * dt n n - dt v n) by (destruct v, n; u2; ring). rewrite U. ring. }
  rewrite D. split; [apply v2_ext; destruct v, n; u2; ring|]. split.
  - unfold nrm. f_equal. replace (dt (mi (sc (2 * dt v n) n) v) (mi (sc (2 * dt v n) n) v)) with (4 * dt v n * dt v n * dt n n - 4 * dt v n * dt v n + dt v v)
      by (destruct v, n; u2; ring). rewrite U. ring.
  - split; [easy|]. destruct v, n; u2; ring.
Qed.
Print Assumptions C70_reflect.
Theorem C70_lerp (a b : p2) (t : R) : Lerp2 a b 0 = a /\ Lerp2 a b 1 = b /\ mi (Lerp2 a b t) a = sc t (mi b a).
Proof. unfold Lerp2. split; [|split]; apply v2_ext; destruct a, b; u2; ring. Qed.
Print Assumptions C70_lerp.
Theorem C70_elements (a b : p2) (e : R) :
  MinElement2 a = Rmin (x2 a) (y2 a) /\ MaxElement2 a = Rmax (x2 a) (y2 a) /\
  (MinElement2 a = if MinElementIndex2 a then x2 a else y2 a) /\ (MaxElement2 a = if MaxElementIndex2 a then x2 a else y2 a) /\
  vMin2 a b = V2 (Rmin (x2 a) (x2 b)) (Rmin (y2 a) (y2 b)) /\ vMax2 a b = V2 (Rmax (x2 a) (x2 b)) (Rmax (y2 a) (y2 b)) /\
  Abs2 a = V2 (Rabs (x2 a)) (Rabs (y2 a)) /\
  (Equals2 a b e = true <-> Rabs (x2 a - x2 b) < e /\ Rabs (y2 a - y2 b) < e) /\
  (IsNormalized2 a e = true <-> Rabs (nrm a * nrm a - 1) <= e) /\ (IsZero2 a e = true <-> nrm a * nrm a <= e) /\
  (IsPerpendicular2 a b 0 = true <-> dt a b = 0).
Proof.
  unfold MinElement2, MaxElement2, MinElementIndex2, MaxElementIndex2, vMin2, vMax2, Abs2, Equals2, IsNormalized2, IsZero2, IsPerpendicular2, EqualAbs.
  rewrite !Min_R, !Max_R, !Abs_R, nrm_sq. change (LengthSq2 a) with (dt a a). change (LengthSq2 b) with (dt b b). change (Dot2 a b) with (dt a b). rsimpl.
  split; [easy|]. split; [easy|]. split; [rcase; unfold Rmin; destruct (Rle_dec _ _); lra|]. split; [rcase; unfold Rmax; destruct (Rle_dec _ _); lra|].
  do 3 (split; [easy|]). split; [rewrite andb_true_iff, !Rltb_true; easy|]. split; [apply Rleb_true|]. split; [apply Rleb_true|].
  rewrite Rleb_true. split; intros E; nra.
Qed.
Print Assumptions C70_elements.
(** Findings: Orthogonalize divides by the length instead of its square, and Refract keeps the wrong normal part. *)
Theorem C70_orthogonalize_refuted : exists a b : p2, 1 <= nrm a /\ dt a (Orthogonalize2 a b) <> 0.
Proof.
  exists (V2 2 0), (V2 1 1). assert (N : nrm (V2 2 0) = 2) by (unfold nrm; replace (dt (V2 2 0) (V2 2 0)) with (2 * 2) by (u2; ring); apply sqrt_square; lra).
  split; [rewrite N; lra|]. unfold Orthogonalize2. change (Length2 (V2 2 0)) with (nrm (V2 2 0)). rewrite N. u2. lra.
Qed.
Print Assumptions C70_orthogonalize_refuted.
Theorem C70_orthogonalize_unit (a b : p2) : nrm a = 1 -> dt a (Orthogonalize2 a b) = 0 /\ dt a (snd (Orthonormalize2 a b)) = 0.
Proof.
  intros U. assert (U2 := U). apply nrm_1 in U2. unfold Orthogonalize2, Orthonormalize2. change (Length2 a) with (nrm a). rewrite U. cbn [snd].
  destruct (C70_normalize a) as [N _]. destruct N as (N & _ & _); [lra|]. unfold Normalized2. rewrite N, U. cbn [fst]. clear N U.
  split.
  - replace (dt a (sub2 b (smul2 (Dot2 a b / 1) a))) with (dt a b - dt a b * dt a a) by (destruct a, b; u2; field). rewrite U2. ring.
  - replace (sc (/ 1) a) with a by (apply v2_ext; destruct a; u2; field).
    replace (dt a (sub2 b (smul2 (Dot2 a b) a))) with (dt a b - dt a b * dt a a) by (destruct a, b; u2; ring). rewrite U2. ring.
Qed.
Print Assumptions C70_orthogonalize_unit.
Theorem C70_refract_straight_refuted : exists v n : p2, nrm v = 1 /\ nrm n = 1 /\ Refract2 v n 1 1 <> v.
Proof.
  exists (V2 0 1), (V2 0 1). assert (N : nrm (V2 0 1) = 1) by (apply nrm_1; u2; ring). split; [easy|]. split; [easy|].
  unfold Refract2. cbv zeta. u2. replace (1 / 1 * (1 / 1) * (1 - (0 * 0 + 1 * 1) * (0 * 0 + 1 * 1))) with 0 by field.
  destruct (Rltb_spec 1 0); [lra|]. rewrite Rminus_0_r, sqrt_1. intros Q. injection Q. intros. lra.
Qed.
Print Assumptions C70_refract_straight_refuted.
Example C70_witness : 1 / 1000 < nrm (V2 3 4) /\ nrm (V2 (3/5) (4/5)) = 1 /\ V2 3 4 <> o2 /\ OrientedCCW (V2 0 0) (V2 1 0) (V2 0 (1:R)) = true.
Proof.
  assert (N : nrm (V2 3 4) = 5) by (unfold nrm; replace (dt (V2 3 4) (V2 3 4)) with (5 * 5) by (u2; ring); apply sqrt_square; lra).
  split; [rewrite N; lra|]. split; [apply nrm_1; u2; field|]. split; [intros Q; injection Q; lra|]. apply C70_perp. u2. lra.
Qed.

(** * C71: AABB2D *)
Definition ordered2 (b : aabb2 R) : Prop := x2 (min2 b) <= x2 (max2 b) /\ y2 (min2 b) <= y2 (max2 b).
Theorem C71_predicates (a b : aabb2 R) (p : p2) :
  (AABB2D_Contains a p = true <-> in_box2 a p) /\
  (ordered2 b -> AABB2D_ContainsBox a b = true <-> forall q, in_box2 b q -> in_box2 a q) /\
  (ordered2 a -> ordered2 b -> AABB2D_Intersects a b = true <-> exists q, in_box2 a q /\ in_box2 b q) /\
  (AABB2D_HasNegativeVolume a = false <-> exists q, in_box2 a q) /\
  (AABB2D_IsDegenerate a = false <-> x2 (min2 a) < x2 (max2 a) /\ y2 (min2 a) < y2 (max2 a)).
Proof.
  unfold ordered2, in_box2, AABB2D_Contains, AABB2D_ContainsBox, AABB2D_Intersects, AABB2D_HasNegativeVolume, AABB2D_IsDegenerate.
  destruct a as [[a0 a1] [a2 a3]], b as [[b0 b1] [b2 b3]]. cbn [min2 max2 x2 y2]. rsimpl.
  rewrite !andb_true_iff, !orb_false_iff, !Rleb_true, !Rltb_false, !Rleb_false.
  split; [tauto|]. split; [|split; [|split]].
  - intros O. split.
    + intros H q. lra.
    + intros H. pose proof (H (V2 b0 b1)) as H1. pose proof (H (V2 b2 b3)) as H2. cbn [x2 y2] in *. lra.
  - intros O1 O2. split.
    + intros H. exists (V2 (Rmax a0 b0) (Rmax a1 b1)). cbn [x2 y2]. unfold Rmax. destruct (Rle_dec a0 b0), (Rle_dec a1 b1); lra.
    + intros (q & H). lra.
  - split; [intros H; exists (V2 a0 a1); cbn; lra|intros (q & H); lra].
  - tauto.
Qed.
Print Assumptions C71_predicates.
(** Enclosing adds exactly the smallest box containing both; the distance is to the closest point. *)
Theorem C71_enclose (b : aabb2 R) (p : p2) :
  (forall q, in_box2 b q -> in_box2 (AABB2D_Enclose b p) q) /\ (ordered2 b -> in_box2 (AABB2D_Enclose b p) p) /\
  (ordered2 b -> forall c, (forall q, in_box2 b q -> in_box2 c q) -> in_box2 c p -> forall q, in_box2 (AABB2D_Enclose b p) q -> in_box2 c q).
Proof.
  unfold AABB2D_Enclose, vMin2, vMax2. rewrite !Min_R, !Max_R. unfold in_box2, ordered2. destruct b as [[b0 b1] [b2 b3]], p as [p0 p1]. cbn [min2 max2 x2 y2].
  split; [|split].
  - intros q H. mm; lra.
  - intros O. mm; lra.
  - intros O c Hc Hp q. pose proof (Hc (V2 b0 b1)) as H1. pose proof (Hc (V2 b2 b3)) as H2. cbn [x2 y2] in *.
    mm; lra.
Qed.
Print Assumptions C71_enclose.
Theorem C71_distance (b : aabb2 R) (p : p2) : ordered2 b ->
  (forall q, in_box2 b q -> AABB2D_DistanceSq b p <= dst q p * dst q p) /\ (exists q, in_box2 b q /\ AABB2D_DistanceSq b p = dst q p * dst q p).
Proof.
  intros O. unfold AABB2D_DistanceSq, vClamp2. unfold ordered2 in O. rewrite !Clamp_R by apply O.
  set (q0 := V2 _ _). assert (D : forall q, DistanceSq2 q p = dst q p * dst q p) by (intros; unfold dst; rewrite nrm_sq; reflexivity). split.
  - intros q H. rewrite <- D. unfold q0, DistanceSq2, in_box2 in *. destruct b as [[b0 b1] [b2 b3]], p as [p0 p1], q as [q1 q2]. cbn [min2 max2 x2 y2] in *. rsimpl.
    assert (G : forall lo hi x q : R, lo <= q <= hi -> (Rmax lo (Rmin x hi) - x) * (Rmax lo (Rmin x hi) - x) <= (q - x) * (q - x)).
    { intros lo hi x q' Hq. apply Rsqr_le_abs_1. unfold Rabs. mm; repeat destruct (Rcase_abs _); lra. }
    pose proof (G b0 b2 p0 q1). pose proof (G b1 b3 p1 q2). lra.
  - exists q0. split; [|apply D]. unfold q0, in_box2. destruct b as [[b0 b1] [b2 b3]], p as [p0 p1]. cbn [min2 max2 x2 y2] in *.
    mm; lra.
Qed.
Print Assumptions C71_distance.
Theorem C71_coordinates (b : aabb2 R) (p d : p2) : 
  (ordered2 b -> 0 <= x2 p <= 1 -> 0 <= y2 p <= 1 -> in_box2 b (AABB2D_PosInside b p)) /\
  (x2 (min2 b) < x2 (max2 b) -> y2 (min2 b) < y2 (max2 b) ->
     AABB2D_ToNormalizedLocalSpace b (AABB2D_PosInside b p) = p /\ AABB2D_PosInside b (AABB2D_ToNormalizedLocalSpace b p) = p) /\
  (forall q, in_box2 (AABB2D_Translated b d) (pl q d) <-> in_box2 b q) /\ AABB2D_TranslatedBack (AABB2D_Translated b d) d = b /\
  (forall i, (i < 4)%nat -> ordered2 b -> in_box2 b (AABB2D_CornerPoint b i)) /\
  (ordered2 b -> forall c, ordered2 c -> (forall i, (i < 4)%nat -> in_box2 c (AABB2D_CornerPoint b i)) -> forall q, in_box2 b q -> in_box2 c q) /\
  Width2 b = x2 (max2 b) - x2 (min2 b) /\ Height2 b = y2 (max2 b) - y2 (min2 b).
Proof.
  unfold ordered2, in_box2, AABB2D_PosInside, AABB2D_ToNormalizedLocalSpace, AABB2D_Translated, AABB2D_TranslatedBack, AABB2D_CornerPoint.
  destruct b as [[b0 b1] [b2 b3]], p as [p0 p1], d as [d0 d1]. cbn [min2 max2]. u2.
  split; [intros; nra|]. split; [intros; split; f_equal; field; lra|]. split; [intros [q0 q1]; lra|]. split; [repeat f_equal; ring|].
  split; [intros [|[|[|[|i]]]] Hi O; cbn [x2 y2]; try lra; exfalso; do 4 apply le_S_n in Hi; inversion Hi|].
  split; [|easy]. intros O c Oc H q. pose proof (H 0%nat) as H0. pose proof (H 3%nat) as H3. cbn [x2 y2] in *. destruct q.
  assert (A : (0 < 4)%nat) by auto. assert (B : (3 < 4)%nat) by auto. specialize (H0 A). specialize (H3 B). lra.
Qed.
Print Assumptions C71_coordinates.
(** The box around a transformed box holds the image of every point, and is the smallest such box. *)
Theorem C71_transform (b : aabb2 R) (m00 m01 m03 m10 m11 m13 : R) : ordered2 b ->
  let f q := V2 (m00 * x2 q + m01 * y2 q + m03) (m10 * x2 q + m11 * y2 q + m13) in
  let t := AABB2D_TransformAsAABB b m00 m01 m03 m10 m11 m13 in
  (forall q, in_box2 b q -> in_box2 t (f q)) /\ (forall c, (forall q, in_box2 b q -> in_box2 c (f q)) -> forall q, in_box2 t q -> in_box2 c q).
Proof.
  intros O. cbv zeta. unfold AABB2D_TransformAsAABB. rewrite !Min_R, !Max_R. unfold ordered2, in_box2 in *. destruct b as [[b0 b1] [b2 b3]]. cbn [min2 max2] in *. u2.
  assert (L : forall m lo hi x : R, lo <= x <= hi -> Rmin (m * lo) (m * hi) <= m * x <= Rmax (m * lo) (m * hi)).
  { intros m lo hi x H. destruct (Rle_dec 0 m); [assert (m * lo <= m * x <= m * hi) by nra|assert (m * hi <= m * x <= m * lo) by nra]; mm; lra. }
  assert (A : forall m lo hi : R, lo <= hi -> exists x y, lo <= x <= hi /\ lo <= y <= hi /\ m * x = Rmin (m * lo) (m * hi) /\ m * y = Rmax (m * lo) (m * hi)).
  { intros m lo hi H. unfold Rmin, Rmax. destruct (Rle_dec (m * lo) (m * hi)); [exists lo, hi|exists hi, lo]; repeat split; lra. }
  split.
  - intros [q0 q1] [Q0 Q1]. pose proof (L m00 b0 b2 q0 Q0). pose proof (L m01 b1 b3 q1 Q1). pose proof (L m10 b0 b2 q0 Q0). pose proof (L m11 b1 b3 q1 Q1). lra.
  - intros c Hc [q0 q1]. destruct O as [O1 O2].
    destruct (A m00 b0 b2 O1) as (xl & xh & X1 & X2 & X3 & X4). destruct (A m01 b1 b3 O2) as (yl & yh & Y1 & Y2 & Y3 & Y4).
    destruct (A m10 b0 b2 O1) as (ul & uh & U1 & U2 & U3 & U4). destruct (A m11 b1 b3 O2) as (vl & vh & V1 & V2' & V3 & V4).
    pose proof (Hc (V2 xl yl) (conj X1 Y1)) as C1. pose proof (Hc (V2 xh yh) (conj X2 Y2)) as C2.
    pose proof (Hc (V2 ul vl) (conj U1 V1)) as C3. pose proof (Hc (V2 uh vh) (conj U2 V2')) as C4. cbn [x2 y2] in *. lra.
Qed.
Print Assumptions C71_transform.
Example C71_witness : ordered2 (Box2 (V2 0 1) (V2 2 3)) /\ in_box2 (Box2 (V2 0 1) (V2 2 3)) (V2 1 2) /\
  AABB2D_TransformAsAABB (Box2 (V2 0 1) (V2 2 3)) 0 (-1) 5 1 0 0 = Box2 (V2 2 0) (V2 4 2).
Proof.
  split; [unfold ordered2; cbn; lra|]. split; [unfold in_box2; cbn; lra|]. unfold AABB2D_TransformAsAABB. rewrite !Min_R, !Max_R. cbn [min2 max2 x2 y2]. rsimpl.
  mm; try lra; repeat f_equal; ring.
Qed.
