(** Lemmas about the arc functions and Euler angles. *)
From Coq Require Import Reals Lra Psatz List Bool Nsatz.
From Verif Require Import Num NumR ScalarModel ScalarProofs Vec3Model GeoTypes GeoSpec GeoLemmas Vec3Props AabbModel
  GMatModel MatModel MatSpec MatProofs MatProofs2 Vec2Model RotModel RotSpec RotProofs RotProofs2.
Import ListNotations.
Open Scope R_scope.

(** ** atan2 *)
Lemma atan_polar t : cos (atan t) * sqrt (1 + t * t) = 1 /\ sin (atan t) * sqrt (1 + t * t) = t.
Proof.
  assert (P : 0 < sqrt (1 + t * t)) by (apply sqrt_lt_R0; nra).
  assert (C : cos (atan t) * sqrt (1 + t * t) = 1) by (rewrite cos_atan; unfold Rsqr; field; lra). split; [exact C|].
  assert (T : tan (atan t) = t) by apply atan_right_inv. assert (N : cos (atan t) <> 0) by (intros Z; rewrite Z in C; lra).
  assert (E : sin (atan t) = tan (atan t) * cos (atan t)) by (unfold tan; field; exact N). rewrite E, T, Rmult_assoc, C. ring.
Qed.
Lemma polar_unique x y : 0 < x * x + y * y -> 0 < sqrt (x * x + y * y) /\ sqrt (x * x + y * y) * sqrt (x * x + y * y) = x * x + y * y.
Proof. intros H. split; [now apply sqrt_lt_R0|apply sqrt_sqrt; lra]. Qed.
Lemma Ratan2_polar x y : 0 < x * x + y * y -> sqrt (x * x + y * y) * cos (Ratan2 y x) = x /\ sqrt (x * x + y * y) * sin (Ratan2 y x) = y.
Proof.
  intros H. unfold Ratan2. destruct (polar_unique x y H) as [P S]. set (r := sqrt (x*x+y*y)) in *.
  assert (E : x <> 0 -> sqrt (1 + y / x * (y / x)) * Rabs x = r).
  { intros N. unfold r. replace (x * x + y * y) with ((1 + y / x * (y / x)) * (x * x)) by (field; exact N).
    rewrite sqrt_mult; [|nra|nra]. f_equal. rewrite <- (sqrt_Rsqr_abs x). reflexivity. }
  destruct (atan_polar (y / x)) as [C Sn]. set (q := sqrt (1 + y / x * (y / x))) in *.
  destruct (Rlt_dec 0 x) as [X|X]; [|destruct (Rlt_dec x 0) as [X'|X']].
  - specialize (E ltac:(lra)). rewrite Rabs_pos_eq in E by lra. rewrite <- E. split.
    + transitivity (x * (cos (atan (y/x)) * q)); [ring|rewrite C; ring].
    + transitivity (x * (sin (atan (y/x)) * q)); [ring|rewrite Sn; field; lra].
  - specialize (E ltac:(lra)). rewrite Rabs_left in E by lra.
    assert (G : r * - cos (atan (y/x)) = x /\ r * - sin (atan (y/x)) = y).
    { rewrite <- E. split.
      - transitivity (x * (cos (atan (y/x)) * q)); [ring|rewrite C; ring].
      - transitivity (x * (sin (atan (y/x)) * q)); [ring|rewrite Sn; field; lra]. }
    destruct (Rle_dec 0 y); [rewrite neg_cos, neg_sin; exact G|].
    replace (atan (y / x) - PI) with (atan (y / x) + PI - 2 * INR 1 * PI) by (cbn; ring).
    rewrite <- (cos_period _ 1), <- (sin_period _ 1). replace (atan (y / x) + PI - 2 * INR 1 * PI + 2 * INR 1 * PI) with (atan (y/x) + PI) by ring.
    rewrite neg_cos, neg_sin; exact G.
  - assert (Z : x = 0) by lra. subst x. assert (R2 : r * r = y * y) by lra.
    destruct (Rlt_dec 0 y); [rewrite cos_PI2, sin_PI2; split; [ring|rewrite Rmult_1_r; nra]|].
    destruct (Rlt_dec y 0); [rewrite cos_neg, sin_neg, cos_PI2, sin_PI2; split; [ring|]|exfalso; nra].
    assert ((r - y) * (r + y) = 0) as M by lra. apply Rmult_integral in M. lra.
Qed.
Lemma Ratan2_range x y : - PI < Ratan2 y x <= PI.
Proof.
  unfold Ratan2. pose proof PI_RGT_0. pose proof (atan_bound (y / x)) as B.
  assert (Pos : x < 0 -> 0 <= y -> y / x <= 0).
  { intros X Y. unfold Rdiv. assert (/ x < 0) by now apply Rinv_lt_0_compat. nra. }
  assert (Ng : x < 0 -> y < 0 -> 0 < y / x).
  { intros X Y. unfold Rdiv. assert (/ x < 0) by now apply Rinv_lt_0_compat. nra. }
  destruct (Rlt_dec 0 x); [lra|]. destruct (Rlt_dec x 0) as [X|X].
  - destruct (Rle_dec 0 y) as [Y|Y].
    + specialize (Pos X Y). destruct (Rle_lt_or_eq_dec _ _ Pos) as [L|L]; [pose proof (atan_increasing _ _ L) as I|rewrite L in *]; rewrite atan_0 in *; lra.
    + specialize (Ng X ltac:(lra)). pose proof (atan_increasing _ _ Ng) as I. rewrite atan_0 in I. lra.
  - destruct (Rlt_dec 0 y); [lra|]. destruct (Rlt_dec y 0); lra.
Qed.
(** An angle in (-pi, pi] is determined by its sine and cosine. *)
Lemma angle_unique s t : - PI < s <= PI -> - PI < t <= PI -> cos s = cos t -> sin s = sin t -> s = t.
Proof.
  assert (G : forall s t, - PI < s <= PI -> - PI < t <= PI -> cos s = cos t -> sin s = sin t -> s <= t -> s = t).
  { intros s0 t0 Hs Ht C S L. destruct (Rle_lt_or_eq_dec _ _ L) as [L'|]; [exfalso|assumption].
    assert (D : cos (t0 - s0) = 1) by (rewrite cos_minus, C, S; pose proof (sin2_cos2 t0) as Q; unfold Rsqr in Q; lra).
    assert (0 < t0 - s0 < 2 * PI) by lra.
    assert (Hf : sin ((t0 - s0) / 2) = 0).
    { replace (t0 - s0) with (2 * ((t0 - s0) / 2)) in D by field. rewrite cos_2a_sin in D. nra. }
    assert (0 < sin ((t0 - s0) / 2)) by (apply sin_gt_0; lra). lra. }
  intros Hs Ht C S. destruct (Rle_lt_dec s t); [now apply G|symmetry; apply G; auto; lra].
Qed.
Lemma Ratan2_unique k t : 0 < k -> - PI < t <= PI -> Ratan2 (k * sin t) (k * cos t) = t.
Proof.
  intros K T. pose proof (sin2_cos2 t) as Q. unfold Rsqr in Q.
  assert (E : k * cos t * (k * cos t) + k * sin t * (k * sin t) = k * k) by (transitivity (k * k * (sin t * sin t + cos t * cos t)); [ring|rewrite Q; ring]).
  assert (P : 0 < k * cos t * (k * cos t) + k * sin t * (k * sin t)) by nra.
  destruct (Ratan2_polar (k * cos t) (k * sin t) P) as [C S]. rewrite E in C, S. rewrite sqrt_square in C, S by lra.
  apply angle_unique; [apply Ratan2_range|exact T|apply (Rmult_eq_reg_l k); lra|apply (Rmult_eq_reg_l k); lra].
Qed.

(** ** Euler angles: products *)
Ltac trig := change (@nsin R Num_R NumTrig_R) with sin; change (@ncos R Num_R NumTrig_R) with cos;
  change (@nasin R Num_R NumTrig_R) with asin; change (@nacos R Num_R NumTrig_R) with acos;
  change (@natan2 R Num_R NumTrig_R) with Ratan2; change (@npi R Num_R NumTrig_R) with PI.
Ltac euler := intros; unfold RotateX, RotateY, RotateZ, mulm, mulmRow, mk3; rsimpl; trig; cbn [row0 row1 row2 vx vy vz]; mext; ring.
Lemma euler_XYZ (a b c : R) : FromEulerXYZ a b c = mulm (mulm (RotateX a) (RotateY b)) (RotateZ c). Proof. unfold FromEulerXYZ. euler. Qed.
Lemma euler_XZY (a b c : R) : FromEulerXZY a b c = mulm (mulm (RotateX a) (RotateZ b)) (RotateY c). Proof. unfold FromEulerXZY. euler. Qed.
Lemma euler_YXZ (a b c : R) : FromEulerYXZ a b c = mulm (mulm (RotateY a) (RotateX b)) (RotateZ c). Proof. unfold FromEulerYXZ. euler. Qed.
Lemma euler_YZX (a b c : R) : FromEulerYZX a b c = mulm (mulm (RotateY a) (RotateZ b)) (RotateX c). Proof. unfold FromEulerYZX. euler. Qed.
Lemma euler_ZXY (a b c : R) : FromEulerZXY a b c = mulm (mulm (RotateZ a) (RotateX b)) (RotateY c). Proof. unfold FromEulerZXY. euler. Qed.
Lemma euler_ZYX (a b c : R) : FromEulerZYX a b c = mulm (mulm (RotateZ a) (RotateY b)) (RotateX c). Proof. unfold FromEulerZYX. euler. Qed.
Lemma euler_XYX (a b c : R) : FromEulerXYX a b c = mulm (mulm (RotateX a) (RotateY b)) (RotateX c). Proof. unfold FromEulerXYX. euler. Qed.
Lemma euler_XZX (a b c : R) : FromEulerXZX a b c = mulm (mulm (RotateX a) (RotateZ b)) (RotateX c). Proof. unfold FromEulerXZX. euler. Qed.
Lemma euler_YXY (a b c : R) : FromEulerYXY a b c = mulm (mulm (RotateY a) (RotateX b)) (RotateY c). Proof. unfold FromEulerYXY. euler. Qed.
Lemma euler_YZY (a b c : R) : FromEulerYZY a b c = mulm (mulm (RotateY a) (RotateZ b)) (RotateY c). Proof. unfold FromEulerYZY. euler. Qed.
Lemma euler_ZXZ (a b c : R) : FromEulerZXZ a b c = mulm (mulm (RotateZ a) (RotateX b)) (RotateZ c). Proof. unfold FromEulerZXZ. euler. Qed.
Lemma euler_ZYZ (a b c : R) : FromEulerZYZ a b c = mulm (mulm (RotateZ a) (RotateY b)) (RotateZ c). Proof. unfold FromEulerZYZ. euler. Qed.
