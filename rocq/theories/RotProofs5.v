(** Lemmas about axis and angle, interpolation, and spherical and polar coordinates. *)
From Coq Require Import Reals Lra Psatz List Bool.
From Verif Require Import Num NumR ScalarModel ScalarProofs Vec3Model GeoTypes GeoSpec GeoLemmas Vec3Props AabbModel
  GMatModel MatModel MatSpec MatProofs MatProofs2 Vec2Model RotModel RotSpec RotProofs RotProofs2 RotProofs3.
Import ListNotations.
Open Scope R_scope.

(** ** Axis and angle of a quaternion *)
Lemma QToAxisAngle_R (q : quat R) : QToAxisAngle q = (V3 (qx q * (1 / sqrt (1 - qw q * qw q))) (qy q * (1 / sqrt (1 - qw q * qw q))) (qz q * (1 / sqrt (1 - qw q * qw q))), acos (qw q) * 2) /\
  QAxis q = fst (QToAxisAngle q) /\ QAngle q = snd (QToAxisAngle q).
Proof. unfold QToAxisAngle, QAxis, QAngle, RSqrt, vmuls. rsimpl. trig. cbn [fst snd]. auto. Qed.
Lemma axis_angle_there (q : quat R) : unitq q -> -1 < qw q < 1 ->
  unitv (fst (QToAxisAngle q)) /\ 0 < snd (QToAxisAngle q) < 2 * PI /\ QFromAxisAngle (fst (QToAxisAngle q)) (snd (QToAxisAngle q)) = q.
Proof.
  intros U W. destruct (QToAxisAngle_R q) as [-> _]. cbn [fst snd]. destruct q as [x y z w]. unfold unitq in U. cbn [qx qy qz qw] in *.
  assert (P : 0 < 1 - w*w) by nra. pose proof (sqrt_lt_R0 _ P) as S. pose proof (sqrt_sqrt _ (Rlt_le _ _ P)) as SS. set (s := sqrt (1 - w*w)) in *.
  split; [|split].
  - unfold unitv, dot. cbn [vx vy vz]. transitivity ((x*x+y*y+z*z) * (1/s*(1/s))); [ring|]. replace (x*x+y*y+z*z) with (s*s) by lra. field; lra.
  - pose proof (acos_bound_lt w W). lra.
  - rewrite QFromAxisAngle_R. cbn [vx vy vz]. replace (acos w * 2 * (1/2)) with (acos w) by field. rewrite cos_acos, sin_acos by lra. unfold Rsqr. fold s.
    f_equal; field; lra.
Qed.
Lemma axis_angle_back (a : pt) t : unitv a -> 0 < t < 2 * PI -> QToAxisAngle (QFromAxisAngle a t) = (a, t).
Proof.
  intros U T. destruct (QToAxisAngle_R (QFromAxisAngle a t)) as [-> _]. rewrite QFromAxisAngle_R. cbn [qx qy qz qw].
  assert (S : 0 < sin (t * (1/2))) by (apply sin_gt_0; lra). pose proof (sin2_cos2 (t * (1/2))) as Q. unfold Rsqr in Q.
  replace (1 - cos (t * (1/2)) * cos (t * (1/2))) with (sin (t * (1/2)) * sin (t * (1/2))) by lra. rewrite sqrt_square by lra.
  rewrite acos_cos by lra. f_equal; [|field]. apply vec_ext; cbn [vx vy vz]; field; lra.
Qed.
Lemma QDiv_R (p q : quat R) : QDiv p q = QMul p (QConjugated q).
Proof. unfold QDiv, QMul, QConjugated. rsimpl. cbn [qx qy qz qw]. f_equal; ring. Qed.
(** The rotation from one orientation to another. *)
Lemma angle_between_orientations (p q : quat R) : unitq p -> unitq q ->
  QAngleBetween p q = 2 * acos (QDot p q) /\
  (-1 < QDot p q < 1 -> unitv (QAxisFromTo p q) /\ FromQuat q = mulm (FromQuat (QFromAxisAngle (QAxisFromTo p q) (QAngleBetween p q))) (FromQuat p)).
Proof.
  intros P Q. unfold QAngleBetween, QAxisFromTo. assert (U : unitq (QDiv q p)) by (rewrite QDiv_R; auto using qmul_unit, qconj_unit).
  rewrite (QNormalized_unit _ U). assert (W : qw (QDiv q p) = QDot p q) by (unfold QDiv, QDot; rsimpl; cbn [qw]; ring).
  split; [unfold QAngle; rsimpl; trig; rewrite W; ring|]. intros B. rewrite <- W in B.
  destruct (axis_angle_there _ U B) as (V & _ & E). destruct (QToAxisAngle_R (QDiv q p)) as (_ & -> & ->). split; [exact V|]. rewrite E, QDiv_R.
  rewrite <- FromQuat_mul by auto using qmul_unit, qconj_unit. f_equal.
  transitivity (QMul q (QMul (QConjugated p) p)); [rewrite (proj2 (qmul_conj p P))|]; destruct q as [x y z w]; unfold QMul, QConjugated, QIdentity; rsimpl; cbn [qx qy qz qw]; f_equal; ring.
Qed.

(** ** Interpolation *)
Definition qcomb (a : R) (p : quat R) (b : R) (q : quat R) : quat R := Q4 (a * qx p + b * qx q) (a * qy p + b * qy q) (a * qz p + b * qz q) (a * qw p + b * qw q).
Lemma qcomb_norm a p b q : unitq p -> unitq q -> qn (qcomb a p b q) = a*a + b*b + 2*a*b*QDot p q.
Proof.
  intros P Q. unfold unitq in *. transitivity (a*a*qn p + b*b*qn q + 2*a*b*QDot p q); [unfold qn, qcomb, QDot; rsimpl; cbn [qx qy qz qw]; ring|].
  change (qn p = 1) in P. change (qn q = 1) in Q. rewrite P, Q. ring.
Qed.
Lemma sum_norm a b (p q : quat R) : QAdd (QMulS p a) (QMulS q b) = qcomb a p b q.
Proof. unfold QAdd, QMulS, qcomb. rsimpl. cbn [qx qy qz qw]. f_equal; ring. Qed.
(** A normalized combination of two unit quaternions on the same side. *)
Lemma norm_comb a b s (p q : quat R) : unitq p -> unitq q -> s = 1 \/ s = -1 -> 0 <= s * QDot p q -> 0 <= a -> 0 <= b -> 1/100000000 <= a*a + b*b ->
  unitq (QNormalized (qcomb (s*a) p b q)) /\ exists k, 0 < k /\ QNormalized (qcomb (s*a) p b q) = qcomb (k*s*a) p (k*b) q.
Proof.
  intros P Q S D A B N. assert (SS : s * s = 1) by (destruct S; subst; ring).
  assert (Nn : 1/100000000 <= qn (qcomb (s*a) p b q)).
  { rewrite (qcomb_norm _ _ _ _ P Q). replace (s*a*(s*a)) with (a*a) by (transitivity (s*s*(a*a)); [rewrite SS|]; ring).
    assert (0 <= 2*(a*b)*(s*QDot p q)) by (apply Rmult_le_pos; nra). lra. }
  assert (L : 1/10000 <= sqrt (qn (qcomb (s*a) p b q))).
  { replace (1/10000) with (sqrt (1/100000000)) by (replace (1/100000000) with (1/10000*(1/10000)) by field; apply sqrt_square; lra). apply sqrt_le_1; lra. }
  unfold QNormalized. rewrite (QNormalize_R _ L). cbn [fst]. split; [apply QMulS_unit; lra|].
  exists (/ sqrt (qn (qcomb (s*a) p b q))). split; [apply Rinv_0_lt_compat; lra|].
  set (k := / sqrt _). unfold QMulS, qcomb. rsimpl. cbn [qx qy qz qw]. f_equal; ring.
Qed.
Lemma QLerp_R (p q : quat R) t : unitq p -> unitq q -> 0 <= t <= 1 -> exists s, (s = 1 \/ s = -1) /\ 0 <= s * QDot p q /\
  unitq (QLerp p q t) /\ exists k, 0 < k /\ QLerp p q t = qcomb (k*s*(1-t)) p (k*t) q.
Proof.
  intros P Q T. unfold QLerp. rsimpl. assert (N : 1/100000000 <= (1-t)*(1-t) + t*t) by nra.
  rcase; rewrite sum_norm; [exists 1|exists (-1); replace (t - 1) with (-1*(1-t)) by ring].
  - split; [now left|]. split; [lra|]. 
    destruct (norm_comb (1-t) t 1 p q) as (U & k & Kp & E); auto; try lra. rewrite Rmult_1_l in U, E. split; [exact U|]. exists k. split; [exact Kp|]. exact E.
  - split; [now right|]. split; [lra|]. destruct (norm_comb (1-t) t (-1) p q) as (U & k & Kp & E); auto; try lra. split; [exact U|]. exists k. auto.
Qed.
Lemma slerp_sin_R x : slerp_sin x = ((56431179763468103537/10000000000000000000000 * (x*x) - 155271410633428644799/1000000000000000000000) * (x*x) + 987862135574673806965/1000000000000000000000) * x.
Proof. unfold slerp_sin. rsimpl. field. Qed.
Lemma slerp_acos_R x : slerp_acos x = 15707963267948966/10000000000000000 - 69813170079773212/100000000000000000 * (x*x*x) - 87266462599716477/100000000000000000 * x.
Proof. unfold slerp_acos. rsimpl. field. Qed.
Lemma slerp_sin_pos x : 0 <= x <= 158/100 -> 6/10 * x <= slerp_sin x.
Proof.
  intros X. rewrite slerp_sin_R. set (c1 := 56431179763468103537/10000000000000000000000). 
  assert (0 <= x*x <= 25/10) by nra. assert (Q : 0 <= c1 * (x*x)) by (unfold c1; nra).
  assert (Q2 : - (155271410633428644799/1000000000000000000000) * (x*x) <= (c1 * (x*x) - 155271410633428644799/1000000000000000000000) * (x*x)) by nra.
  nra.
Qed.
Lemma slerp_acos_bound x : 0 <= x < 999/1000 -> 2/1000 <= slerp_acos x <= 158/100.
Proof.
  intros X. rewrite slerp_acos_R. assert (0 <= x*x <= 999/1000*(999/1000)) by nra. assert (0 <= x*x*x <= 999/1000*(999/1000)*(999/1000)) by (split; nra). lra.
Qed.
Lemma QSlerp_R (p q : quat R) t : unitq p -> unitq q -> 0 <= t <= 1 -> exists s a b, (s = 1 \/ s = -1) /\ 0 <= s * QDot p q /\
  0 <= a /\ 0 <= b /\ unitq (QSlerp p q t) /\ QSlerp p q t = qcomb (s*a) p b q /\ (t = 0 -> b = 0) /\ (t = 1 -> a = 0) /\ (t = 1/2 -> a = b) /\ (0 < t -> 0 < b) /\ (t < 1 -> 0 < a).
Proof.
  intros P Q T. unfold QSlerp. cbv zeta. set (D := QDot p q).
  set (sg := if (D <? n0)%num then (- n1)%num else n1). set (an := if (D <? n0)%num then (- D)%num else D).
  assert (S : (sg = 1 \/ sg = -1) /\ 0 <= sg * D /\ an = sg * D).
  { unfold sg, an. rsimpl. rcase; (split; [auto|split; lra]). }
  clearbody sg an. destruct S as (S1 & S2 & ->). set (d := sg * D) in *. rsimpl.
  assert (Hd : d <= 1).
  { pose proof (qn_pos (qcomb 1 p (-sg) q)) as C. rewrite (qcomb_norm _ _ _ _ P Q) in C. fold D in C. unfold d. destruct S1; subst; nra. }
  assert (G : forall a b, 0 <= a -> 0 <= b -> 1/100000000 <= a*a + b*b -> (t = 0 -> b = 0) -> (t = 1 -> a = 0) -> (t = 1/2 -> a = b) -> (0 < t -> 0 < b) -> (t < 1 -> 0 < a) ->
    exists s a' b', (s = 1 \/ s = -1) /\ 0 <= s * D /\ 0 <= a' /\ 0 <= b' /\ unitq (QNormalized (QAdd (QMulS p (a * sg)) (QMulS q b))) /\
     QNormalized (QAdd (QMulS p (a * sg)) (QMulS q b)) = qcomb (s*a') p b' q /\ (t = 0 -> b' = 0) /\ (t = 1 -> a' = 0) /\ (t = 1/2 -> a' = b') /\ (0 < t -> 0 < b') /\ (t < 1 -> 0 < a')).
  { intros a b A B N T0 T1 T2 T3 T4. rewrite sum_norm. rewrite (Rmult_comm a sg). destruct (norm_comb a b sg p q P Q S1 S2 A B N) as (U & k & Kp & E).
    exists sg, (k*a), (k*b). split; [exact S1|]. split; [exact S2|]. split; [nra|]. split; [nra|]. split; [exact U|]. split; [rewrite E; f_equal; ring|].
    split; [intros; rewrite T0 by assumption; ring|]. split; [intros; rewrite T1 by assumption; ring|]. split; [intros; rewrite T2 by assumption; ring|].
    split; [intros Tp; specialize (T3 Tp); nra|intros Tp; specialize (T4 Tp); nra]. }
  rcase.
  - pose proof (slerp_acos_bound d ltac:(lra)) as B. set (w := slerp_acos d) in *.
    assert (B1 : 0 <= t * w <= 158/100) by nra. assert (B2 : 0 <= w - t * w <= 158/100) by nra.
    pose proof (slerp_sin_pos _ B1) as L1. pose proof (slerp_sin_pos _ B2) as L2. apply G; try lra.
    + assert (C : 1/1000 <= t * w \/ 1/1000 <= w - t * w) by lra. destruct C as [C|C].
      * assert (6/10000 <= slerp_sin (t * w)) by lra. nra.
      * assert (6/10000 <= slerp_sin (w - t * w)) by lra. nra.
    + intros ->. rewrite Rmult_0_l, slerp_sin_R. ring.
    + intros ->. replace (w - 1 * w) with 0 by ring. rewrite slerp_sin_R. ring.
    + intros ->. f_equal. lra.
    + intros Tp. assert (0 < t * w) by nra. lra.
    + intros Tp. assert (0 < w - t * w) by nra. lra.
  - apply G; try lra. nra.
Qed.
(** Interpolating vectors: a nonnegative combination of the two, of unit length. *)
Lemma slerp_core (a b : pt) t : unitv a -> unitv b -> eps6 < norm (cross a b) -> 0 <= t <= 1 ->
  let r := QTransform (QSlerp QIdentity (QRotateFromTo a b) t) a in
  unitv r /\ exists l m, 0 <= l /\ 0 <= m /\ r = plus (scale l a) (scale m b) /\ (t = 1/2 -> l = m) /\ (0 < t -> 0 < m) /\ (t < 1 -> 0 < l).
Proof.
  intros A B H T r. destruct (QRotateFromTo_formula a b A B H) as [U _].
  assert (Ui : unitq (@QIdentity R Num_R)) by (unfold unitq, QIdentity; rsimpl; cbn [qx qy qz qw]; ring).
  destruct (QSlerp_R QIdentity (QRotateFromTo a b) t Ui U T) as (s & x & y & S & D & X & Y & Us & E & _ & _ & Eh & Ey & Ex).
  assert (Ur : unitv r).
  { unfold unitv, r. rewrite QTransform_apply. destruct (quat_rotation _ Us) as [Dp _]. rewrite Dp. exact A. }
  split; [exact Ur|]. unfold r. rewrite (quat_formula _ _ Us).
  rewrite E in Us |- *. revert E D Us. rewrite (QRotateFromTo_R a b H). intros _ D Us.
  pose proof (dot_bound a b A B) as Db. pose proof (cross_norm a b A B) as N. pose proof (norm_sq (cross a b)) as NN.
  assert (KA : dot (cross a b) a = 0) by (unfold dot, cross; cbn [vx vy vz]; ring).
  assert (KX : crossp (cross a b) a = minus b (scale (dot a b) a)).
  { transitivity (minus (scale (dot a a) b) (scale (dot a b) a)); [apply vec_ext; unfold minus, scale, crossp, cross, dot; cbn [vx vy vz]; ring|].
    rewrite A. apply vec_ext; unfold minus, scale; cbn [vx vy vz]; ring. }
  set (d := dot a b) in *. set (k := cross a b) in *. set (n := norm k) in *.
  assert (Hn : 0 < n) by (unfold eps6 in H; lra).
  pose proof (sqrt_sqrt (1/2 - 1/2*d)) as Sq. pose proof (sqrt_sqrt (1/2 + 1/2*d)) as C.
  pose proof (sqrt_pos (1/2 - 1/2*d)) as Sp. pose proof (sqrt_pos (1/2 + 1/2*d)) as Cp.
  set (sh := sqrt (1/2 - 1/2*d)) in *. set (ch := sqrt (1/2 + 1/2*d)) in *. specialize (Sq ltac:(lra)). specialize (C ltac:(lra)).
  assert (P : 2 * sh * ch = n).
  { apply Rsqr_inj; [nra|lra|]. unfold Rsqr. transitivity (4 * (sh * sh) * (ch * ch)); [ring|]. rewrite Sq, C. rewrite NN, N. field. }
  assert (Nn : n * n = dot k k) by lra.
  assert (Chp : 0 < ch) by (destruct Cp; [assumption|nra]). assert (Shp : 0 < sh) by (destruct Sp; [assumption|nra]).
  assert (Sg : s = 1) by (unfold QDot, QIdentity in D; revert D; rsimpl; cbn [qx qy qz qw]; intros D; destruct S as [|S]; [assumption|subst; nra]). subst s.
  exists (x * (x * ch + y) / ch), (y * (x + y * ch) / ch).
  assert (Ip : 0 < / ch) by now apply Rinv_0_lt_compat.
  assert (Q1 : 0 <= x * ch) by nra. assert (Q2 : 0 <= y * ch) by nra.
  split; [unfold Rdiv; apply Rmult_le_pos; [apply Rmult_le_pos; lra|lra]|]. split; [unfold Rdiv; apply Rmult_le_pos; [apply Rmult_le_pos; lra|lra]|].
  split; [|split; [intros T2; rewrite (Eh T2); unfold Rdiv; ring|split]].
  - unfold qcomb, QIdentity, qvec. rsimpl. cbn [qx qy qz qw].
    assert (K : V3 (1 * x * 0 + y * (/ n * vx k * sh)) (1 * x * 0 + y * (/ n * vy k * sh)) (1 * x * 0 + y * (/ n * vz k * sh)) = scale (y * (/ n * sh)) k) by (apply vec_ext; unfold scale; cbn [vx vy vz]; ring).
    rewrite K. rewrite !dot_scale_l, dot_scale_r, <- Nn, KA.
    assert (KX' : crossp (scale (y * (/ n * sh)) k) a = scale (y * (/ n * sh)) (crossp k a)) by (apply vec_ext; unfold scale, crossp; cbn [vx vy vz]; ring).
    rewrite KX', KX. replace (y * (/ n * sh)) with (y / (2 * ch)) by (rewrite <- P; field; lra). rewrite <- P.
    assert (Dd : d = ch * ch - sh * sh) by (rewrite Sq, C; field). assert (Q3 : sh * sh = 1 - ch * ch) by lra.
    apply vec_ext; unfold plus, scale, minus; cbn [vx vy vz]; rewrite Dd;
    replace (y / (2 * ch) * (y / (2 * ch) * (2 * sh * ch * (2 * sh * ch)))) with (y * y * (sh * sh)) by (field; lra); rewrite Q3; field; lra.
  - intros Tp. specialize (Ey Tp). unfold Rdiv. apply Rmult_lt_0_compat; [apply Rmult_lt_0_compat; nra|lra].
  - intros Tp. specialize (Ex Tp). unfold Rdiv. apply Rmult_lt_0_compat; [apply Rmult_lt_0_compat; nra|lra].
Qed.

(** ** Angles and spherical coordinates *)
Lemma acosClamped_R (c : R) : -1 <= c <= 1 -> 0 <= acosClamped c <= PI /\ cos (acosClamped c) = c.
Proof.
  intros C. unfold acosClamped. rsimpl. trig. pose proof PI_RGT_0.
  rcase; [rewrite cos_0; split; lra|]. rcase; [rewrite cos_PI; split; lra|]. split; [apply acos_bound|apply cos_acos; lra].
Qed.
Lemma AngleBetween_correct (a b : pt) : a <> origin -> b <> origin -> angle_between a b (AngleBetween a b).
Proof.
  intros A B. assert (Na : 0 < norm a).
  { destruct (norm_pos a) as [|E]; [assumption|]. exfalso. apply A. apply dot_zero. rewrite <- (norm_sq a). rewrite <- E. ring. }
  assert (Nb : 0 < norm b).
  { destruct (norm_pos b) as [|E]; [assumption|]. exfalso. apply B. apply dot_zero. rewrite <- (norm_sq b). rewrite <- E. ring. }
  assert (S : @nsqrt R Num_R (LengthSq a * LengthSq b)%num = norm a * norm b).
  { rsimpl. change (@LengthSq R Num_R a) with (dot a a). change (@LengthSq R Num_R b) with (dot b b). rewrite sqrt_mult; [reflexivity|apply dot_pos..]. }
  unfold AngleBetween. rewrite S. rsimpl. change (@Dot R Num_R a b) with (dot a b).
  pose proof (cauchy a b) as C. assert (P : 0 < norm a * norm b) by nra.
  assert (Cb : -1 <= dot a b / (norm a * norm b) <= 1).
  { unfold Rabs in C. split; [apply (Rmult_le_reg_r (norm a * norm b)); [exact P|]|apply (Rmult_le_reg_r (norm a * norm b)); [exact P|]];
    (replace (dot a b / (norm a * norm b) * (norm a * norm b)) with (dot a b) by (field; lra)); destruct (Rcase_abs (dot a b)); lra. }
  destruct (acosClamped_R _ Cb) as [R1 R2]. split; [exact R1|]. rewrite R2. field; lra.
Qed.
Lemma unit_norm (a : pt) : unitv a <-> norm a = 1.
Proof. unfold unitv. rewrite <- (norm_sq a). pose proof (norm_pos a). split; intros; nra. Qed.
Lemma AngleBetweenNorm_correct (a b : pt) : unitv a -> unitv b -> angle_between a b (AngleBetweenNorm a b).
Proof.
  intros A B. destruct (acosClamped_R (dot a b) (dot_bound a b A B)) as [R1 R2]. split; [exact R1|].
  change (AngleBetweenNorm a b) with (acosClamped (dot a b)). rewrite R2. rewrite (proj1 (unit_norm a) A), (proj1 (unit_norm b) B). ring.
Qed.
Lemma FromSpherical_R (az inc r : R) : FromSpherical az inc r = V3 (cos inc * sin az * r) (- sin inc * r) (cos inc * cos az * r).
Proof. unfold FromSpherical. rsimpl. trig. reflexivity. Qed.
Lemma sph_dir (w : pt) : unitv w -> cos (asin (- vy w)) * sin (Ratan2 (vx w) (vz w)) = vx w /\ - sin (asin (- vy w)) = vy w /\ cos (asin (- vy w)) * cos (Ratan2 (vx w) (vz w)) = vz w.
Proof.
  intros U. destruct w as [x y z]. unfold unitv, dot in U. cbn [vx vy vz] in *.
  assert (B : -1 <= -y <= 1) by nra. rewrite cos_asin, sin_asin by lra. unfold Rsqr.
  replace (1 - - y * - y) with (z*z + x*x) by lra.
  destruct (Rle_lt_dec (z*z+x*x) 0) as [Z|P].
  - assert (z = 0 /\ x = 0) as [-> ->] by (split; nra). replace (0*0+0*0) with 0 by ring. rewrite sqrt_0. lra.
  - destruct (Ratan2_polar z x P) as [C S]. lra.
Qed.
Lemma ToSpherical_R (v : pt) : 1/100000 < norm v -> ToSpherical v = V3 (Ratan2 (vx (scale (/ norm v) v)) (vz (scale (/ norm v) v))) (asin (- vy (scale (/ norm v) v))) (norm v).
Proof.
  intros N. unfold ToSpherical. rewrite Normalize_R. rewrite (proj2 (Rltb_true _ _)) by (unfold eps6; lra). cbv beta iota. rsimpl. trig.
  rcase; [exfalso; lra|]. reflexivity.
Qed.
Lemma scale_unit (v : pt) : 0 < norm v -> unitv (scale (/ norm v) v).
Proof. intros N. unfold unitv. rewrite dot_scale_l, dot_scale_r, <- (norm_sq v). field; lra. Qed.
Lemma spherical_there (v : pt) : 1/100000 < norm v -> let s := ToSpherical v in
  FromSpherical (vx s) (vy s) (vz s) = v /\ - PI < vx s <= PI /\ -(PI/2) <= vy s <= PI/2 /\ vz s = norm v.
Proof.
  intros N s. unfold s. rewrite (ToSpherical_R v N). cbn [vx vy vz]. assert (U := scale_unit v ltac:(lra)). destruct (sph_dir _ U) as (D0 & D1 & D2).
  split; [|split; [apply Ratan2_range|split; [apply asin_bound|reflexivity]]].
  change (/ norm v * vx v) with (vx (scale (/ norm v) v)). change (/ norm v * vy v) with (vy (scale (/ norm v) v)). change (/ norm v * vz v) with (vz (scale (/ norm v) v)).
  rewrite FromSpherical_R, D0, D1, D2. apply vec_ext; unfold scale; cbn [vx vy vz]; field; lra.
Qed.
Lemma spherical_norm az inc r : 0 <= r -> norm (FromSpherical az inc r) = r.
Proof.
  intros P. rewrite FromSpherical_R. unfold norm, dot. cbn [vx vy vz].
  pose proof (sin2_cos2 az) as Qa. pose proof (sin2_cos2 inc) as Qi. unfold Rsqr in *.
  replace (cos inc * sin az * r * (cos inc * sin az * r) + - sin inc * r * (- sin inc * r) + cos inc * cos az * r * (cos inc * cos az * r)) with (r * r); [now apply sqrt_square|].
  transitivity (r * r * (cos inc * cos inc * (sin az * sin az + cos az * cos az) + sin inc * sin inc)); [rewrite Qa; replace (cos inc * cos inc * 1 + sin inc * sin inc) with 1 by lra; ring|ring].
Qed.
Lemma spherical_back az inc r : - PI < az <= PI -> -(PI/2) < inc < PI/2 -> 1/100000 < r -> ToSpherical (FromSpherical az inc r) = V3 az inc r.
Proof.
  intros A I P. assert (N : norm (FromSpherical az inc r) = r) by (apply spherical_norm; lra). rewrite ToSpherical_R by (rewrite N; lra). rewrite N.
  assert (C : 0 < cos inc) by (apply cos_gt_0; lra). rewrite FromSpherical_R. unfold scale. cbn [vx vy vz].
  replace (/ r * (cos inc * sin az * r)) with (cos inc * sin az) by (field; lra). replace (/ r * (cos inc * cos az * r)) with (cos inc * cos az) by (field; lra).
  replace (- (/ r * (- sin inc * r))) with (sin inc) by (field; lra). rewrite Ratan2_unique by lra. rewrite asin_sin by lra. reflexivity.
Qed.
(** The documented matrix form: R_y(azimuth) R_x(inclination) (0,0,radius). *)
Lemma spherical_matrix az inc r : FromSpherical az inc r = apply (RotateY az) (apply (RotateX inc) (V3 0 0 r)).
Proof.
  rewrite FromSpherical_R. destruct (RotateXYZ_R inc (V3 0 0 r)) as [-> _].
  unfold RotateY. rsimpl. trig. unfold rodrigues, plus, scale, crossp, dot, ex. cbn [vx vy vz]. rewrite mk3_apply. f_equal; ring.
Qed.
