(** Lemmas about the geometric vocabulary. *)
From Coq Require Import Reals Lra Psatz ZArith.
From Verif Require Import Num NumR ScalarModel ScalarProofs Vec3Model GeoSpec.
Open Scope R_scope.

Lemma vec_eta (a : pt) : a = V3 (vx a) (vy a) (vz a). Proof. now destruct a. Qed.
Lemma vec_ext (a b : pt) : vx a = vx b -> vy a = vy b -> vz a = vz b -> a = b.
Proof. destruct a, b; cbn; intros; now subst. Qed.

(** Expose coordinates of geometry and of the real instance of the model. *)
Ltac gunf := unfold dist, norm, along, orth, unitv, volume, minus, plus, scale, dot, origin in *; cbn [vx vy vz] in *.
Ltac vunf := unfold ProjectTo, ProjectToNorm, vLerp, vadd, vsub, vneg, vmuls, smulv, vdivs, vmul, vdiv, FromScalar, LengthSq, Dot, Cross, DistanceSq,
   vzero, unitX, unitY, unitZ in *; cbv zeta in *; cbn [vx vy vz] in *; rsimpl.

Lemma dot_pos a : 0 <= dot a a. Proof. gunf. nra. Qed.
Lemma dot_zero a : dot a a = 0 -> a = origin.
Proof. gunf. intros. apply vec_ext; cbn; nra. Qed.
Lemma norm_pos a : 0 <= norm a. Proof. apply sqrt_pos. Qed.
Lemma norm_sq a : norm a * norm a = dot a a. Proof. apply sqrt_sqrt, dot_pos. Qed.
Lemma dot_comm a b : dot a b = dot b a. Proof. gunf. ring. Qed.
Lemma dot_plus_l a b c : dot (plus a b) c = dot a c + dot b c. Proof. gunf. ring. Qed.
Lemma dot_plus_r a b c : dot c (plus a b) = dot c a + dot c b. Proof. gunf. ring. Qed.
Lemma dot_minus_l a b c : dot (minus a b) c = dot a c - dot b c. Proof. gunf. ring. Qed.
Lemma dot_minus_r a b c : dot c (minus a b) = dot c a - dot c b. Proof. gunf. ring. Qed.
Lemma dot_scale_l k a b : dot (scale k a) b = k * dot a b. Proof. gunf. ring. Qed.
Lemma dot_scale_r k a b : dot a (scale k b) = k * dot a b. Proof. gunf. ring. Qed.

Lemma lagrange a b : dot a a * dot b b - dot a b * dot a b =
  (vy a * vz b - vz a * vy b)^2 + (vz a * vx b - vx a * vz b)^2 + (vx a * vy b - vy a * vx b)^2.
Proof. gunf. ring. Qed.
Lemma cauchy_sq a b : dot a b * dot a b <= dot a a * dot b b.
Proof.
  pose proof (lagrange a b). pose proof (pow2_ge_0 (vy a * vz b - vz a * vy b)). pose proof (pow2_ge_0 (vz a * vx b - vx a * vz b)).
  pose proof (pow2_ge_0 (vx a * vy b - vy a * vx b)). lra.
Qed.
Lemma cauchy a b : Rabs (dot a b) <= norm a * norm b.
Proof.
  unfold norm. rewrite <- sqrt_mult by apply dot_pos. rewrite <- sqrt_Rsqr_abs. apply sqrt_le_1_alt. unfold Rsqr. apply cauchy_sq.
Qed.
Lemma norm_triangle a b : norm (plus a b) <= norm a + norm b.
Proof.
  pose proof (cauchy a b) as C. pose proof (Rle_abs (dot a b)). pose proof (norm_pos a). pose proof (norm_pos b).
  unfold norm at 1. rewrite <- (sqrt_square (norm a + norm b)) by lra. apply sqrt_le_1_alt.
  rewrite dot_plus_l, !dot_plus_r, (dot_comm b a). pose proof (norm_sq a). pose proof (norm_sq b). nra.
Qed.
Lemma norm_scale k a : norm (scale k a) = Rabs k * norm a.
Proof.
  unfold norm. rewrite dot_scale_l, dot_scale_r, <- Rmult_assoc, sqrt_mult; [|nra|apply dot_pos].
  f_equal. apply (sqrt_Rsqr_abs k).
Qed.
Lemma norm_zero a : norm a = 0 <-> a = origin.
Proof.
  split.
  - intros H. apply dot_zero. rewrite <- norm_sq, H. ring.
  - intros ->. unfold norm. replace (dot origin origin) with 0 by (gunf; ring). apply sqrt_0.
Qed.
Lemma dist_sym a b : dist a b = dist b a.
Proof. unfold dist, norm. f_equal. gunf. ring. Qed.
Lemma dist_triangle a b c : dist a c <= dist a b + dist b c.
Proof.
  unfold dist. replace (minus a c) with (plus (minus a b) (minus b c)); [apply norm_triangle|].
  apply vec_ext; cbn; ring.
Qed.
Lemma dist_zero a b : dist a b = 0 <-> a = b.
Proof.
  unfold dist. rewrite norm_zero. split; [|intros ->; apply vec_ext; cbn; ring].
  intros H. destruct a, b. unfold minus, origin in H. cbn in H. injection H as ? ? ?. f_equal; lra.
Qed.
Lemma norm_sq_le a r : 0 <= r -> (norm a <= r <-> dot a a <= r * r).
Proof.
  intros Hr. pose proof (norm_sq a). pose proof (norm_pos a). split; intros; nra.
Qed.
Lemma norm_sq_lt a r : 0 <= r -> (norm a < r <-> dot a a < r * r).
Proof.
  intros Hr. pose proof (norm_sq a). pose proof (norm_pos a). split; intros; nra.
Qed.
Lemma norm_le_cmp a b : norm a <= norm b <-> dot a a <= dot b b.
Proof. rewrite (norm_sq_le a (norm b)) by apply norm_pos. now rewrite norm_sq. Qed.

(** The model's operations at R are these. *)
Lemma Dot_R (a b : pt) : Dot a b = dot a b. Proof. reflexivity. Qed.
Lemma LengthSq_R (a : pt) : LengthSq a = dot a a. Proof. reflexivity. Qed.
Lemma Length_R (a : pt) : Length a = norm a. Proof. reflexivity. Qed.
Lemma vadd_R (a b : pt) : vadd a b = plus a b. Proof. reflexivity. Qed.
Lemma vsub_R (a b : pt) : vsub a b = minus a b. Proof. reflexivity. Qed.
Lemma smulv_R k (a : pt) : smulv k a = scale k a. Proof. reflexivity. Qed.
Lemma vmuls_R k (a : pt) : vmuls a k = scale k a. Proof. apply vec_ext; cbn; ring. Qed.
Lemma vneg_R (a : pt) : vneg a = scale (-1) a. Proof. apply vec_ext; cbn; ring. Qed.
Lemma DistanceSq_R (a b : pt) : DistanceSq a b = dot (minus a b) (minus a b). Proof. reflexivity. Qed.
Lemma Distance_R (a b : pt) : Distance a b = dist a b. Proof. reflexivity. Qed.

(** Replace the model's vector operations at R by the geometric ones. *)
Ltac toR :=
  change (@vadd R Num_R) with plus in *; change (@vsub R Num_R) with minus in *; change (@smulv R Num_R) with scale in *;
  change (@Dot R Num_R) with dot in *; change (@Length R Num_R) with norm in *; change (@Distance R Num_R) with dist in *;
  repeat match goal with
  | |- context [@LengthSq R Num_R ?v] => change (@LengthSq R Num_R v) with (dot v v)
  | H : context [@LengthSq R Num_R ?v] |- _ => change (@LengthSq R Num_R v) with (dot v v) in H
  | |- context [@DistanceSq R Num_R ?a ?b] => change (@DistanceSq R Num_R a b) with (dot (minus a b) (minus a b))
  | H : context [@DistanceSq R Num_R ?a ?b] |- _ => change (@DistanceSq R Num_R a b) with (dot (minus a b) (minus a b)) in H
  | |- context [@vmuls R Num_R ?v ?k] => rewrite (vmuls_R k v)
  | H : context [@vmuls R Num_R ?v ?k] |- _ => rewrite (vmuls_R k v) in H
  | |- context [@vneg R Num_R ?v] => rewrite (vneg_R v)
  | H : context [@vneg R Num_R ?v] |- _ => rewrite (vneg_R v) in H
  end.
