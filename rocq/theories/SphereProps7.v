(** C44, continued: the diameter and the degenerate balls. *)
From Coq Require Import Reals Lra Psatz Bool.
From Verif Require Import Num NumR ScalarProofs Vec3Model GeoTypes GeoSpec GeoLemmas AabbSpec LineSpec SphereModel SphereSpec SphereProps.
Open Scope R_scope.

(** Diameter is the largest distance between two points of the ball; IsDegenerate holds exactly for balls without an interior. *)
Theorem C44_measures (s : sphere R) : (0 <= srad s -> (exists a b, in_sphere s a /\ in_sphere s b /\ dist a b = Sphere_Diameter s) /\ forall a b, in_sphere s a -> in_sphere s b -> dist a b <= Sphere_Diameter s) /\
  (Sphere_IsDegenerate s = true <-> forall a b, in_sphere s a -> in_sphere s b -> a = b).
Proof.
  assert (DI : Sphere_Diameter s = 2 * srad s) by (unfold Sphere_Diameter; rsimpl; reflexivity).
  assert (SHIFT : forall k, dist (plus (spos s) (V3 k 0 0)) (spos s) = Rabs k).
  { intros k. unfold dist, norm. replace (dot _ _) with (Rsqr k) by (unfold Rsqr; gunf; cbn; ring). apply sqrt_Rsqr_abs. }
  assert (SYM : forall a b : pt, dist a b = dist b a) by (intros a b; unfold dist, norm; f_equal; gunf; cbn; ring).
  assert (IN : forall k, Rabs k <= srad s -> in_sphere s (plus (spos s) (V3 k 0 0))) by (intros k K; unfold in_sphere; first [rewrite SHIFT|rewrite SYM, SHIFT]; exact K).
  assert (TRI : forall a b, in_sphere s a -> in_sphere s b -> dist a b <= 2 * srad s).
  { intros a b A B. unfold in_sphere in A, B. pose proof (dist_triangle a (spos s) b) as T. first [rewrite (SYM (spos s) a) in A|rewrite (SYM a (spos s)) in A|idtac]. pose proof (SYM a (spos s)). pose proof (SYM b (spos s)). lra. }
  split.
  - intros R0. rewrite DI. split; [|exact TRI]. exists (plus (spos s) (V3 (srad s) 0 0)), (plus (spos s) (V3 (- srad s) 0 0)). split; [apply IN; rewrite Rabs_pos_eq; lra|]. split; [apply IN; rewrite Rabs_Ropp, Rabs_pos_eq; lra|].
    unfold dist, norm. replace (dot _ _) with (Rsqr (2 * srad s)) by (unfold Rsqr; gunf; cbn; ring). rewrite sqrt_Rsqr by lra. reflexivity.
  - unfold Sphere_IsDegenerate. rsimpl. rewrite negb_true_iff, Rltb_false. split.
    + intros R0 a b A B. assert (D : dist a b = 0) by (pose proof (TRI a b A B); assert (0 <= dist a b) by apply norm_pos; lra). unfold dist in D. apply norm_zero in D. apply (f_equal (fun v => plus v b)) in D. unfold plus, minus, origin in D. cbn in D. injection D as X Y Z. apply vec_ext; lra.
    + intros H. apply Rnot_lt_le. intros R0. assert (E := H _ _ (IN (srad s) ltac:(rewrite Rabs_pos_eq; lra)) (IN 0 ltac:(rewrite Rabs_R0; lra))). apply (f_equal vx) in E. unfold plus in E. cbn in E. lra.
Qed.
Print Assumptions C44_measures.
