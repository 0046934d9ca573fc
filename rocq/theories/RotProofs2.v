(** More lemmas about rotations: conversion from matrices, rotations from one direction to another. *)
From Coq Require Import Reals Lra Psatz List Bool.
From Verif Require Import Num NumR ScalarModel ScalarProofs Vec3Model GeoTypes GeoSpec GeoLemmas Vec3Props AabbModel
  GMatModel MatModel MatSpec MatProofs MatProofs2 Vec2Model RotModel RotSpec RotProofs.
Import ListNotations.
Open Scope R_scope.

(** ** Normalization *)
Lemma QLength_R (q : quat R) : QLength q = sqrt (qn q). Proof. reflexivity. Qed.
Lemma qn_pos (q : quat R) : 0 <= qn q. Proof. unfold qn. nra. Qed.
Lemma QNormalize_unit (q : quat R) : unitq q -> QNormalize q = (q, 1).
Proof.
  intros U. unfold QNormalize. rewrite QLength_R. change (qn q = 1) in U. rewrite U, sqrt_1. rsimpl. rcase; [lra|].
  f_equal. destruct q as [x y z w]. cbn [qx qy qz qw]. f_equal; field.
Qed.
Lemma QNormalized_unit (q : quat R) : unitq q -> QNormalized q = q.
Proof. intros U. unfold QNormalized. now rewrite QNormalize_unit. Qed.
Lemma QNormalize_R (q : quat R) : 1/10000 <= sqrt (qn q) -> QNormalize q = (QMulS q (/ sqrt (qn q)), sqrt (qn q)).
Proof.
  intros H. unfold QNormalize. rewrite QLength_R. rsimpl. rcase; [lra|]. f_equal. unfold QMulS. rsimpl.
  replace (1 / sqrt (qn q)) with (/ sqrt (qn q)) by (field; lra). reflexivity.
Qed.
Lemma QMulS_unit (q : quat R) : 0 < sqrt (qn q) -> unitq (QMulS q (/ sqrt (qn q))).
Proof.
  intros H. change (qn (QMulS q (/ sqrt (qn q))) = 1). set (s := sqrt (qn q)) in *.
  assert (E : qn q = s * s) by (unfold s; rewrite sqrt_sqrt; [reflexivity|apply qn_pos]).
  transitivity (qn q * (/ s * / s)); [unfold qn, QMulS; rsimpl; cbn [qx qy qz qw]; ring|rewrite E; field; lra].
Qed.

(** ** Matrix to quaternion *)
(** Four products per pivot. *)
Lemma quat_from_products (p k1 k2 k3 : R) : 0 < p -> p * p + k1 * k1 + k2 * k2 + k3 * k3 = 4 * p ->
  let r := sqrt p * (1/2) in let i := 1 / (4 * r) in
  r * r = p / 4 /\ r * (k1 * i) = k1 / 4 /\ r * (k2 * i) = k2 / 4 /\ r * (k3 * i) = k3 / 4 /\
  k1 * i * (k1 * i) = k1 * k1 / (4 * p) /\ k2 * i * (k2 * i) = k2 * k2 / (4 * p) /\ k3 * i * (k3 * i) = k3 * k3 / (4 * p) /\
  k1 * i * (k2 * i) = k1 * k2 / (4 * p) /\ k1 * i * (k3 * i) = k1 * k3 / (4 * p) /\ k2 * i * (k3 * i) = k2 * k3 / (4 * p) /\
  r * r + k1 * i * (k1 * i) + k2 * i * (k2 * i) + k3 * i * (k3 * i) = 1.
Proof.
  intros P S r i. pose proof (sqrt_lt_R0 _ P) as L. pose proof (sqrt_sqrt p (Rlt_le _ _ P)) as Q. unfold i, r. clear i r. set (s := sqrt p) in *.
  clearbody s. subst p. clear P. repeat split; try (field; lra).
  replace (s * (1/2) * (s * (1/2)) + k1 * (1 / (4 * (s * (1/2)))) * (k1 * (1 / (4 * (s * (1/2))))) + k2 * (1 / (4 * (s * (1/2)))) * (k2 * (1 / (4 * (s * (1/2))))) + k3 * (1 / (4 * (s * (1/2)))) * (k3 * (1 / (4 * (s * (1/2))))))
    with ((s * s * (s * s) + k1 * k1 + k2 * k2 + k3 * k3) / (4 * (s * s))) by (field; lra). rewrite S. field; lra.
Qed.
Lemma div_eq a b c : 0 < b -> a = b * c -> a / (4 * b) = c / 4.
Proof. intros P ->. field. lra. Qed.
Lemma QFromMat_correct (m : mat3 R) : rotation (apply m) -> unitq (QFromMat m) /\ FromQuat (QFromMat m) = m.
Proof.
  destruct m as [[a b c] [d e f] [g h i]]. change (M3 (V3 a b c) (V3 d e f) (V3 g h i)) with (mk3 a b c d e f g h i). intros Rt.
  apply rotm_of in Rt. destruct Rt as ((C0&C1&C2&C3&C4&C5)&(R0&R1&R2&R3&R4&R5)&(K0&K1&K2&K3&K4&K5&K6&K7&K8)).
  assert (G : forall q : quat R, unitq q /\ FromQuat q = mk3 a b c d e f g h i -> unitq (QNormalized q) /\ FromQuat (QNormalized q) = mk3 a b c d e f g h i).
  { intros q [U E]. rewrite (QNormalized_unit q U). auto. }
  unfold QFromMat. apply G. clear G. unfold m00, m01, m02, m10, m11, m12, m20, m21, m22, mk3. cbn [row0 row1 row2 vx vy vz]. rsimpl.
  assert (Fin : forall x y z w, x*x+y*y+z*z+w*w = 1 -> 4*(x*x) = 1 + a - e - i -> 4*(y*y) = 1 + e - a - i -> 4*(z*z) = 1 + i - a - e ->
    4*(x*y) = b + d -> 4*(x*z) = c + g -> 4*(y*z) = f + h -> 4*(x*w) = h - f -> 4*(y*w) = c - g -> 4*(z*w) = d - b ->
    unitq (Q4 x y z w) /\ FromQuat (Q4 x y z w) = M3 (V3 a b c) (V3 d e f) (V3 g h i)).
  { intros x y z w U X1 X2 X3 X4 X5 X6 X7 X8 X9. split; [exact U|]. rewrite FromQuat_R. unfold mk3. cbv zeta. cbn [qx qy qz qw]. mext; lra. }
  rcase; [|destruct ((Rltb e a && Rltb i a)%bool) eqn:B; [apply andb_true_iff in B as [B1 B2]; apply Rltb_true in B1; apply Rltb_true in B2|]].
  - destruct (quat_from_products (a + e + i + 1) (h - f) (c - g) (d - b)) as (P0&P1&P2&P3&P4&P5&P6&P7&P8&P9&P10); [lra|lra|].
    cbv zeta in *. set (r := sqrt (a + e + i + 1) * (1/2)) in *. set (j := 1 / (4 * r)) in *.
    rewrite (div_eq _ _ (1 + a - e - i)) in P4 by lra. rewrite (div_eq _ _ (1 + e - a - i)) in P5 by lra. rewrite (div_eq _ _ (1 + i - a - e)) in P6 by lra.
    rewrite (div_eq _ _ (b + d)) in P7 by lra. rewrite (div_eq _ _ (c + g)) in P8 by lra. rewrite (div_eq _ _ (f + h)) in P9 by lra.
    apply Fin; lra.
  - destruct (quat_from_products (1 + a - e - i) (b + d) (c + g) (h - f)) as (P0&P1&P2&P3&P4&P5&P6&P7&P8&P9&P10); [lra|lra|].
    cbv zeta in *. set (r := sqrt (1 + a - e - i) * (1/2)) in *. set (j := 1 / (4 * r)) in *.
    rewrite (div_eq _ _ (1 + e - a - i)) in P4 by lra. rewrite (div_eq _ _ (1 + i - a - e)) in P5 by lra. rewrite (div_eq _ _ (1 + a + e + i)) in P6 by lra.
    rewrite (div_eq _ _ (f + h)) in P7 by lra. rewrite (div_eq _ _ (c - g)) in P8 by lra. rewrite (div_eq _ _ (d - b)) in P9 by lra.
    apply Fin; lra.
  - assert (B' : a <= e \/ a <= i).
    { apply andb_false_iff in B as [B|B]; apply Rltb_false in B; auto. }
    rcase.
    + destruct (quat_from_products (1 + e - a - i) (b + d) (f + h) (c - g)) as (P0&P1&P2&P3&P4&P5&P6&P7&P8&P9&P10); [lra|lra|].
      cbv zeta in *. set (r := sqrt (1 + e - a - i) * (1/2)) in *. set (j := 1 / (4 * r)) in *.
      rewrite (div_eq _ _ (1 + a - e - i)) in P4 by lra. rewrite (div_eq _ _ (1 + i - a - e)) in P5 by lra. rewrite (div_eq _ _ (1 + a + e + i)) in P6 by lra.
      rewrite (div_eq _ _ (c + g)) in P7 by lra. rewrite (div_eq _ _ (h - f)) in P8 by lra. rewrite (div_eq _ _ (d - b)) in P9 by lra.
      apply Fin; lra.
    + destruct (quat_from_products (1 + i - a - e) (c + g) (f + h) (d - b)) as (P0&P1&P2&P3&P4&P5&P6&P7&P8&P9&P10); [lra|lra|].
      cbv zeta in *. set (r := sqrt (1 + i - a - e) * (1/2)) in *. set (j := 1 / (4 * r)) in *.
      rewrite (div_eq _ _ (1 + a - e - i)) in P4 by lra. rewrite (div_eq _ _ (1 + e - a - i)) in P5 by lra. rewrite (div_eq _ _ (1 + a + e + i)) in P6 by lra.
      rewrite (div_eq _ _ (b + d)) in P7 by lra. rewrite (div_eq _ _ (h - f)) in P8 by lra. rewrite (div_eq _ _ (c - g)) in P9 by lra.
      apply Fin; lra.
Qed.
(** Two unit quaternions with the same rotation are equal up to sign. *)
Lemma FromQuat_sign (p q : quat R) : unitq p -> unitq q -> FromQuat p = FromQuat q -> p = q \/ p = QNeg q.
Proof.
  intros Up Uq E. rewrite !FromQuat_R in E. destruct p as [x y z w], q as [x' y' z' w']. unfold unitq, mk3 in *. cbv zeta in E. cbn [qx qy qz qw] in *.
  injection E as E0 E1 E2 E3 E4 E5 E6 E7 E8.
  assert (X : x*x = x'*x') by lra. assert (Y : y*y = y'*y') by lra. assert (Z : z*z = z'*z') by lra. assert (W : w*w = w'*w') by lra.
  assert (XY : x*y = x'*y') by lra. assert (XZ : x*z = x'*z') by lra. assert (YZ : y*z = y'*z') by lra.
  assert (XW : x*w = x'*w') by lra. assert (YW : y*w = y'*w') by lra. assert (ZW : z*w = z'*w') by lra.
  clear E0 E1 E2 E3 E4 E5 E6 E7 E8.
  set (D := x*x' + y*y' + z*z' + w*w').
  assert (DD : D * D = 1).
  { transitivity ((x*x)*(x'*x') + (y*y)*(y'*y') + (z*z)*(z'*z') + (w*w)*(w'*w') + 2*((x*y)*(x'*y')+(x*z)*(x'*z')+(y*z)*(y'*z')+(x*w)*(x'*w')+(y*w)*(y'*w')+(z*w)*(z'*w'))); [unfold D; ring|].
    rewrite X, Y, Z, W, XY, XZ, YZ, XW, YW, ZW. transitivity ((x'*x'+y'*y'+z'*z'+w'*w')*(x'*x'+y'*y'+z'*z'+w'*w')); [ring|rewrite Uq; ring]. }
  assert (G : forall a b c d, a*a + b*b + c*c + d*d = 0 -> a = 0 /\ b = 0 /\ c = 0 /\ d = 0).
  { intros a b c d S. repeat split; apply Rsqr_0_uniq; unfold Rsqr; nra. }
  assert (Ds : D = 1 \/ D = -1) by (assert ((D - 1) * (D + 1) = 0) as M by lra; apply Rmult_integral in M; lra).
  unfold QNeg. rsimpl. cbn [qx qy qz qw].
  destruct Ds as [Ds|Ds]; unfold D in Ds; [left|right].
  - destruct (G (x - x') (y - y') (z - z') (w - w')) as (A&B&C&F); [|f_equal; lra].
    transitivity (x*x+y*y+z*z+w*w + (x'*x'+y'*y'+z'*z'+w'*w') - 2 * (x*x' + y*y' + z*z' + w*w')); [ring|rewrite Up, Uq, Ds; ring].
  - destruct (G (x + x') (y + y') (z + z') (w + w')) as (A&B&C&F); [|f_equal; lra].
    transitivity (x*x+y*y+z*z+w*w + (x'*x'+y'*y'+z'*z'+w'*w') + 2 * (x*x' + y*y' + z*z' + w*w')); [ring|rewrite Up, Uq, Ds; ring].
Qed.

(** ** From one direction to another *)
Lemma dot_bound (a b : pt) : unitv a -> unitv b -> -1 <= dot a b <= 1.
Proof.
  intros A B. unfold unitv in *. pose proof (dot_pos (minus a b)) as P. pose proof (dot_pos (plus a b)) as Q.
  rewrite dot_minus_l, !dot_minus_r, (dot_comm b a) in P. rewrite dot_plus_l, !dot_plus_r, (dot_comm b a) in Q. lra.
Qed.
Lemma cross_norm (a b : pt) : unitv a -> unitv b -> dot (cross a b) (cross a b) = 1 - dot a b * dot a b.
Proof. intros A B. unfold unitv in *. rewrite cross_sq, A, B. ring. Qed.
Lemma sqrt_half a b : 0 <= a -> 0 <= b -> 0 <= sqrt a /\ sqrt a * sqrt a = a. Proof. intros. split; [apply sqrt_pos|now apply sqrt_sqrt]. Qed.
Lemma QRotateFromTo_R (a b : pt) : eps6 < norm (cross a b) ->
  QRotateFromTo a b = Q4 (/ norm (cross a b) * vx (cross a b) * sqrt (1/2 - 1/2 * dot a b)) (/ norm (cross a b) * vy (cross a b) * sqrt (1/2 - 1/2 * dot a b))
    (/ norm (cross a b) * vz (cross a b) * sqrt (1/2 - 1/2 * dot a b)) (sqrt (1/2 + 1/2 * dot a b)).
Proof.
  intros H. unfold QRotateFromTo. change (Cross a b) with (cross a b). rewrite Normalize_R. rewrite (proj2 (Rltb_true _ _) H).
  change (@Dot R Num_R a b) with (dot a b). unfold eps6 in H. rsimpl. rcase; [lra|]. cbn [negb]. reflexivity.
Qed.
(** The rotation by a quaternion built that way. *)
Lemma QRotateFromTo_formula (a b : pt) : unitv a -> unitv b -> eps6 < norm (cross a b) ->
  unitq (QRotateFromTo a b) /\ forall x, QTransform (QRotateFromTo a b) x =
    plus (plus (scale (dot a b) x) (crossp (cross a b) x)) (scale ((1 - dot a b) / dot (cross a b) (cross a b) * dot (cross a b) x) (cross a b)).
Proof.
  intros A B H. pose proof (dot_bound a b A B) as D. pose proof (cross_norm a b A B) as N. rewrite (QRotateFromTo_R a b H).
  pose proof (norm_sq (cross a b)) as NN. set (d := dot a b) in *. set (k := cross a b) in *. set (n := norm k) in *.
  assert (Hn : 0 < n) by (unfold eps6 in H; lra).
  pose proof (sqrt_sqrt (1/2 - 1/2*d)) as S. pose proof (sqrt_sqrt (1/2 + 1/2*d)) as C.
  pose proof (sqrt_pos (1/2 - 1/2*d)) as Sp. pose proof (sqrt_pos (1/2 + 1/2*d)) as Cp.
  set (sh := sqrt (1/2 - 1/2*d)) in *. set (ch := sqrt (1/2 + 1/2*d)) in *. specialize (S ltac:(lra)). specialize (C ltac:(lra)).
  assert (P : 2 * sh * ch = n).
  { apply Rsqr_inj; [nra|lra|]. unfold Rsqr. transitivity (4 * (sh * sh) * (ch * ch)); [ring|]. rewrite S, C. rewrite NN, N. field. }
  assert (Nn : n * n = dot k k) by lra.
  assert (U : unitq (Q4 (/ n * vx k * sh) (/ n * vy k * sh) (/ n * vz k * sh) ch)).
  { unfold unitq. cbn [qx qy qz qw]. transitivity (dot k k * (/ n * / n) * (sh * sh) + ch * ch); [unfold dot; ring|]. rewrite <- Nn, S, C. field. lra. }
  split; [exact U|]. intros x. rewrite (quat_formula _ _ U). unfold qvec. cbn [qx qy qz qw].
  assert (K : V3 (/ n * vx k * sh) (/ n * vy k * sh) (/ n * vz k * sh) = scale (/ n * sh) k) by (apply vec_ext; unfold scale; cbn [vx vy vz]; ring).
  rewrite K. rewrite !dot_scale_l, dot_scale_r, <- Nn.
  replace (ch * ch - / n * sh * (/ n * sh * (n * n))) with d by (transitivity (ch * ch - sh * sh); [rewrite S, C; field|field; lra]).
  assert (KX : scale (2 * ch) (crossp (scale (/ n * sh) k) x) = crossp k x).
  { transitivity (scale (2 * sh * ch * / n) (crossp k x)); [apply vec_ext; unfold scale, crossp; cbn [vx vy vz]; ring|].
    rewrite P. apply vec_ext; unfold scale; cbn [vx vy vz]; field; lra. }
  rewrite KX. f_equal. transitivity (scale (2 * (sh * sh) * (/ n * / n) * dot k x) k); [apply vec_ext; unfold scale; cbn [vx vy vz]; ring|].
  rewrite S. f_equal. field. lra.
Qed.
Lemma fromto_maps (a b : pt) : unitv a -> unitv b -> plus (plus (scale (dot a b) a) (crossp (cross a b) a)) (scale ((1 - dot a b) / dot (cross a b) (cross a b) * dot (cross a b) a) (cross a b)) = b.
Proof.
  intros A B. replace (dot (cross a b) a) with 0 by (unfold dot, cross; cbn [vx vy vz]; ring).
  transitivity (scale (dot a a) b); [|rewrite A; apply vec_ext; unfold scale; cbn [vx vy vz]; ring].
  apply vec_ext; unfold plus, scale, crossp, cross, dot; cbn [vx vy vz]; ring.
Qed.
Lemma fromto_axis (a b : pt) : dot (cross a b) (cross a b) <> 0 -> plus (plus (scale (dot a b) (cross a b)) (crossp (cross a b) (cross a b))) (scale ((1 - dot a b) / dot (cross a b) (cross a b) * dot (cross a b) (cross a b)) (cross a b)) = cross a b.
Proof.
  intros N. set (k := cross a b) in *. replace ((1 - dot a b) / dot k k * dot k k) with (1 - dot a b) by (field; exact N).
  apply vec_ext; unfold plus, scale, crossp; cbn [vx vy vz]; ring.
Qed.
Lemma QRotateFromTo_correct (a b : pt) : unitv a -> unitv b -> eps6 < norm (cross a b) ->
  unitq (QRotateFromTo a b) /\ QTransform (QRotateFromTo a b) a = b /\ QTransform (QRotateFromTo a b) (cross a b) = cross a b.
Proof.
  intros A B H. destruct (QRotateFromTo_formula a b A B H) as [U F]. split; [exact U|]. rewrite !F. split; [now apply fromto_maps|].
  apply fromto_axis. rewrite <- (norm_sq (cross a b)). unfold eps6 in H. nra.
Qed.
(** Reflections. *)
Definition reflect (k : R) (u x : pt) : pt := plus x (scale (k * dot u x) u).
Lemma reflect_dot k u x y : k * dot u u = -2 -> dot (reflect k u x) (reflect k u y) = dot x y.
Proof.
  intros K. unfold reflect. rewrite dot_plus_l, !dot_plus_r, !dot_scale_l, !dot_scale_r, (dot_comm x u).
  transitivity (dot x y + k * dot u x * dot u y * (2 + k * dot u u)); [ring|rewrite K; ring].
Qed.
Lemma reflect_volume k u x y z : volume (reflect k u x) (reflect k u y) (reflect k u z) = (1 + k * dot u u) * volume x y z.
Proof. unfold reflect, volume, plus, scale, dot. cbn [vx vy vz]. ring. Qed.
Lemma reflect_to (a e : pt) : unitv a -> unitv e -> dot e a <> 1 -> reflect (- (2) / dot (minus e a) (minus e a)) (minus e a) a = e /\
  reflect (- (2) / dot (minus e a) (minus e a)) (minus e a) e = a /\ - (2) / dot (minus e a) (minus e a) * dot (minus e a) (minus e a) = -2.
Proof.
  intros A E D. unfold unitv in *. assert (UU : dot (minus e a) (minus e a) = 2 * (1 - dot e a)) by (rewrite dot_minus_l, !dot_minus_r, (dot_comm a e), A, E; ring).
  unfold reflect. rewrite UU. rewrite !dot_minus_l, A, E, (dot_comm a e).
  replace (- (2) / (2 * (1 - dot e a)) * (dot e a - 1)) with 1 by (field; lra).
  replace (- (2) / (2 * (1 - dot e a)) * (1 - dot e a)) with (-1) by (field; lra).
  split; [|split]; [apply vec_ext; unfold plus, scale, minus; cbn [vx vy vz]; ring..|field; lra].
Qed.
Lemma RotateFromTo3_near (a b : pt) : unitv a -> unitv b -> Rabs (dot a b) > 999/1000 ->
  exists e, unitv e /\ dot e a <> 1 /\ dot e b <> 1 /\
  forall x, apply (RotateFromTo3 a b) x = reflect (- (2) / dot (minus e b) (minus e b)) (minus e b) (reflect (- (2) / dot (minus e a) (minus e a)) (minus e a) x).
Proof.
  intros A B D. unfold RotateFromTo3. change (@Dot R Num_R) with dot. cbv zeta. rewrite Abs_R. rsimpl.
  rcase; [|exfalso; lra].
  set (e := if (Rltb (vx (vAbs a)) (vy (vAbs a)) && Rltb (vx (vAbs a)) (vz (vAbs a)))%bool then V3 1 0 0 else if Rltb (vy (vAbs a)) (vz (vAbs a)) then V3 0 1 0 else V3 0 0 1).
  assert (He : unitv e /\ dot e a * dot e a <= 1/3).
  { assert (S : forall t, Rabs t * Rabs t = t * t) by (intros t; unfold Rabs; destruct (Rcase_abs t); ring).
    pose proof (S (vx a)) as S1. pose proof (S (vy a)) as S2. pose proof (S (vz a)) as S3.
    pose proof (Rabs_pos (vx a)). pose proof (Rabs_pos (vy a)). pose proof (Rabs_pos (vz a)).
    unfold unitv, dot in A. unfold e. unfold vAbs. cbn [vx vy vz]. rewrite !Abs_R.
    destruct (Rltb_spec (Rabs (vx a)) (Rabs (vy a))), (Rltb_spec (Rabs (vx a)) (Rabs (vz a))); cbn [andb]; try (destruct (Rltb_spec (Rabs (vy a)) (Rabs (vz a))));
    (split; [unfold unitv, dot; cbn [vx vy vz]; ring|unfold dot; cbn [vx vy vz]; nra]). }
  clearbody e. destruct He as [Ue Hea]. exists e. split; [exact Ue|].
  assert (Ha : dot e a <> 1) by nra.
  assert (Hb : dot e b <> 1).
  { set (d := dot a b) in *. set (w := minus b (scale d a)).
    assert (W : dot w w = 1 - d * d) by (unfold w; rewrite dot_minus_l, !dot_minus_r, !dot_scale_l, !dot_scale_r, (dot_comm b a); fold d; rewrite A, B; ring).
    pose proof (cauchy_sq e w) as C. rewrite Ue, W in C.
    assert (Eb : dot e b = d * dot e a + dot e w) by (unfold w; rewrite dot_minus_r, dot_scale_r; ring).
    rewrite Eb. pose proof (dot_bound a b A B) as Db. fold d in Db.
    assert (Dd : d * d > 998/1000) by (unfold Rabs in D; destruct (Rcase_abs d); nra).
    assert (L1 : d * dot e a <= 6/10) by (destruct (Rle_lt_dec (d * dot e a) (6/10)); [assumption|]; assert ((d * dot e a) * (d * dot e a) > 36/100) by nra; nra).
    assert (L2 : dot e w <= 1/10) by nra. lra. }
  split; [exact Ha|split; [exact Hb|]]. intros x. change (@vsub R Num_R) with minus. set (u := minus e a). set (v := minus e b).
  set (k := - (2) / dot u u). set (l := - (2) / dot v v). destruct x as [x y z]. rewrite mk3_apply. unfold reflect, plus, scale, dot. cbn [vx vy vz]. f_equal; ring.
Qed.
Lemma RotateFromTo3_far (a b : pt) : Rabs (dot a b) <= 999/1000 -> forall x, apply (RotateFromTo3 a b) x =
    plus (plus (scale (dot a b) x) (crossp (cross a b) x)) (scale ((1 - dot a b) / dot (cross a b) (cross a b) * dot (cross a b) x) (cross a b)).
Proof.
  intros D x. unfold RotateFromTo3. change (@Dot R Num_R) with dot. cbv zeta. rewrite Abs_R. rsimpl. rcase; [exfalso; lra|].
  change (@Cross R Num_R a b) with (cross a b). set (k := cross a b). set (d := dot a b). set (h := (1 - d) / dot k k). destruct x as [x y z]. rewrite mk3_apply.
  unfold plus, scale, crossp. cbn [vx vy vz]. unfold dot. cbn [vx vy vz]. f_equal; ring.
Qed.
Lemma far_norm (a b : pt) : unitv a -> unitv b -> Rabs (dot a b) <= 999/1000 -> eps6 < norm (cross a b).
Proof.
  intros A B D. pose proof (cross_norm a b A B) as N. apply Rsqr_incrst_0; [|unfold eps6; lra|apply norm_pos]. unfold Rsqr. rewrite (norm_sq (cross a b)), N. unfold eps6.
  assert (dot a b * dot a b <= 999/1000 * (999/1000)) by (unfold Rabs in D; destruct (Rcase_abs (dot a b)); nra). lra.
Qed.
Lemma rotation_ext (f g : pt -> pt) : (forall x, f x = g x) -> rotation g -> rotation f.
Proof. intros E [D V]. split; intros; rewrite !E; auto. Qed.
Lemma RotateFromTo3_correct (a b : pt) : unitv a -> unitv b -> rotation (apply (RotateFromTo3 a b)) /\ apply (RotateFromTo3 a b) a = b.
Proof.
  intros A B. destruct (Rle_lt_dec (Rabs (dot a b)) (999/1000)) as [D|D].
  - destruct (QRotateFromTo_formula a b A B (far_norm a b A B D)) as [U F]. split.
    + apply (rotation_ext _ (apply (FromQuat (QRotateFromTo a b)))); [|now apply quat_rotation]. intros x. rewrite (RotateFromTo3_far a b D), <- F. reflexivity.
    + rewrite (RotateFromTo3_far a b D). now apply fromto_maps.
  - destruct (RotateFromTo3_near a b A B D) as (e & Ue & Ha & Hb & F).
    destruct (reflect_to a e A Ue Ha) as (T1 & _ & K1). destruct (reflect_to b e B Ue Hb) as (_ & T2 & K2). split.
    + split; intros; rewrite !F; [now rewrite !reflect_dot|]. rewrite !reflect_volume, K1, K2. ring.
    + now rewrite F, T1, T2.
Qed.
