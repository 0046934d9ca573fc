(** C45: growing a sphere. *)
From Coq Require Import Reals Lra Psatz Bool List Permutation.
From Verif Require Import Num NumR ScalarModel ScalarProofs Vec3Model GeoTypes GeoSpec GeoLemmas AabbModel AabbSpec LineModel LineSpec
  LineProofs LineProps MatModel MatProofs RotModel PlaneModel PlaneSpec PlaneProps PlaneProps2 PlaneProps4 Vec3Props SphereModel SphereSpec SphereProps AabbProps2.
Import ListNotations.
Open Scope R_scope.

Lemma vdivs_R (a : pt) k : k <> 0 -> vdivs a k = scale (/ k) a.
Proof. intros H. unfold vdivs. rsimpl. unfold scale. apply vec_ext; cbn [vx vy vz]; field; exact H. Qed.
Lemma Enclose_R (s : sphere R) p : let d := dist (spos s) p in (d = 0 -> 1 / 10000 <= srad s * srad s) ->
  Sphere_Enclose s p = if Rltb (srad s * srad s) (d * d + 1 / 10000)
    then Sph (plus (spos s) (scale ((d - srad s) / 2 / d) (minus p (spos s)))) ((srad s + d) / 2 + 1 / 10000) else s.
Proof.
  intros d H. unfold Sphere_Enclose, Sphere_Enclose_eps. rewrite LengthSq_R. toG. rewrite !nlit_R. rsimpl.
  replace (dot (minus p (spos s)) (minus p (spos s))) with (d * d) by (unfold d, dist; rewrite norm_sq; gunf; ring). rewrite sqrt_square by apply dist_pos.
  destruct (Rltb_spec (srad s * srad s) (d * d + 1 / 10000)) as [L|L]; [|reflexivity].
  assert (N : d <> 0) by (intros Z; specialize (H Z); rewrite Z in L; lra). f_equal; [|field].
  rewrite vdivs_R by exact N. rewrite vmuls_R. clearbody d. unfold plus, scale, minus. cbn [vx vy vz]. apply vec_ext; cbn [vx vy vz]; field; exact N.
Qed.
(** One call.  Always: the new sphere contains the point.  It contains all of the old ball unless the ball is small and the point
    is just inside it; enclosing the centre of such a ball divides zero by zero. *)
Theorem C45_enclose_point (s : sphere R) (p : pt) : 0 <= srad s -> p <> spos s \/ 1 / 100 <= srad s ->
  in_sphere (Sphere_Enclose s p) p /\
  (srad s <= dist (spos s) p \/ 1 <= srad s + dist (spos s) p \/ srad s * srad s >= dist (spos s) p * dist (spos s) p + 1 / 10000 ->
   srad s <= srad (Sphere_Enclose s p) /\ forall x, in_sphere s x -> in_sphere (Sphere_Enclose s p) x).
Proof.
  intros S N. set (d := dist (spos s) p). assert (D0 : 0 <= d) by apply dist_pos.
  assert (H : d = 0 -> 1 / 10000 <= srad s * srad s). { intros Z. destruct N as [N|N]; [exfalso; apply N; symmetry; now apply dist_zero|nra]. }
  pose proof (Enclose_R s p H) as E. cbv zeta in E. fold d in E. rewrite E. clear E.
  destruct (Rltb_spec (srad s * srad s) (d * d + 1 / 10000)) as [L|L].
  - assert (P : 0 < d) by (destruct D0 as [|Z]; [assumption|symmetry in Z; specialize (H Z); rewrite Z in L; lra]).
    set (h := (d - srad s) / 2). set (c := plus (spos s) (scale (h / d) (minus p (spos s)))). cbn [srad].
    assert (A : dist (spos s) c = Rabs h).
    { unfold dist, c. replace (minus (spos s) (plus (spos s) (scale (h / d) (minus p (spos s))))) with (scale (h / d) (minus (spos s) p)) by (gunf; apply vec_ext; cbn [vx vy vz]; ring).
      rewrite norm_scale. change (norm (minus (spos s) p)) with d. unfold Rdiv. rewrite Rabs_mult, (Rabs_pos_eq (/ d)) by (left; apply Rinv_0_lt_compat, P). field. lra. }
    assert (B : dist c p = (d + srad s) / 2).
    { unfold dist, c. replace (minus (plus (spos s) (scale (h / d) (minus p (spos s)))) p) with (scale (1 - h / d) (minus (spos s) p)) by (gunf; apply vec_ext; cbn [vx vy vz]; ring).
      rewrite norm_scale. change (norm (minus (spos s) p)) with d. replace (1 - h / d) with ((d + srad s) / 2 / d) by (unfold h; field; lra).
      rewrite Rabs_pos_eq by (apply Rmult_le_pos; [lra|left; apply Rinv_0_lt_compat, P]). field. lra. }
    split; [unfold in_sphere; cbn [spos srad]; rewrite B; lra|]. intros G.
    assert (HH : Rabs h + srad s <= (srad s + d) / 2 + 1 / 10000).
    { unfold Rabs, h. destruct Rcase_abs as [C|C]; [|lra]. destruct G as [G|[G|G]]; [lra| |lra]. nra. }
    pose proof (Rabs_pos h). split; [lra|]. intros x X. unfold in_sphere in *. cbn [spos srad]. pose proof (dist_triangle c (spos s) x) as T. rewrite (dist_sym c (spos s)), A in T. lra.
  - split; [unfold in_sphere; fold d; nra|]. intros _. split; [lra|auto].
Qed.
Print Assumptions C45_enclose_point.
Example C45_enclose_point_witness : 0 <= srad (Sph (V3 0 0 0) 1) /\ (V3 3 0 0 <> spos (Sph (V3 0 0 0) 1)) /\ srad (Sph (V3 0 0 0) 1) <= dist (V3 0 0 0) (V3 3 0 0).
Proof.
  split; [cbn; lra|]. split; [cbn; intros E; injection E; lra|]. unfold dist, norm, minus, dot. cbn [srad vx vy vz]. match goal with |- _ <= sqrt ?x => replace x with (3 * 3) by ring end. rewrite sqrt_square; lra.
Qed.
Lemma axis_dist a b x y z : dist (V3 x y z) (V3 (x + a) (y + b) z) = sqrt (a * a + b * b).
Proof. unfold dist, norm, minus, dot. cbn [vx vy vz]. f_equal. ring. Qed.
(** A ball of radius 1/100 loses half of itself when a point near its centre is "enclosed". *)
Theorem C45_enclose_shrinks_refuted : exists (s : sphere R) (p x : pt), 0 < srad s /\ p <> spos s /\ in_sphere s p /\ in_sphere s x /\
  ~ in_sphere (Sphere_Enclose s p) x /\ srad (Sphere_Enclose s p) < srad s.
Proof.
  exists (Sph (V3 0 0 0) (1/100)), (V3 (1/1000) 0 0), (V3 (1/100) 0 0). cbn [srad spos].
  assert (D : forall a, 0 <= a -> dist (V3 0 0 0) (V3 a 0 0) = a). { intros a A. unfold dist, norm, minus, dot. cbn [vx vy vz]. match goal with |- sqrt ?x = _ => replace x with (a * a) by ring end. now apply sqrt_square. }
  assert (E : Sphere_Enclose (Sph (V3 0 0 0) (1/100)) (V3 (1/1000) 0 0) = Sph (V3 (- (45/10000)) 0 0) (56/10000)).
  { rewrite Enclose_R; cbn [srad spos]; rewrite (D (1/1000)) by lra; [|lra]. rewrite (proj2 (Rltb_true _ _)) by lra. f_equal; [|lra]. unfold plus, scale, minus. cbn [vx vy vz]. apply vec_ext; cbn [vx vy vz]; field. }
  rewrite E. split; [lra|]. split; [intros F; injection F; lra|]. split; [unfold in_sphere; cbn [spos srad]; rewrite D; lra|]. split; [unfold in_sphere; cbn [spos srad]; rewrite D; lra|]. split; [|cbn; lra].
  unfold in_sphere, dist, norm, minus, dot. cbn [spos srad vx vy vz]. match goal with |- ~ sqrt ?x <= _ => replace x with ((145/10000) * (145/10000)) by lra end. rewrite sqrt_square; lra.
Qed.
Print Assumptions C45_enclose_shrinks_refuted.

(** Every history of calls on a ball of radius at least 1 keeps the ball and encloses all the points, in whatever order. *)
Theorem C45_history (pts : list pt) (s : sphere R) : 1 <= srad s ->
  srad s <= srad (Sphere_EncloseAll s pts) /\ (forall x, in_sphere s x -> in_sphere (Sphere_EncloseAll s pts) x) /\ (forall p, In p pts -> in_sphere (Sphere_EncloseAll s pts) p).
Proof.
  unfold Sphere_EncloseAll. revert s. induction pts as [|p pts IH]; intros s S; cbn [fold_left].
  - split; [lra|]. split; [auto|intros p []].
  - destruct (C45_enclose_point s p ltac:(lra) ltac:(right; lra)) as [A B]. destruct B as [B C]; [right; left; pose proof (dist_pos (spos s) p); lra|].
    destruct (IH (Sphere_Enclose s p) (Rle_trans _ _ _ S B)) as (D & E & F). split; [exact (Rle_trans _ _ _ B D)|]. split; [auto|]. intros q [<-|Q]; auto.
Qed.
Print Assumptions C45_history.
Lemma insertFar_perm (key : pt -> R) p l : Permutation (p :: l) (insertFar key p l).
Proof. induction l as [|q l IH]; cbn; [reflexivity|]. rsimpl. destruct (Rltb (key q) (key p)); [reflexivity|]. etransitivity; [apply perm_swap|]. now constructor. Qed.
Lemma farthestFirst_perm (s : sphere R) pts : Permutation pts (farthestFirst s pts).
Proof.
  unfold farthestFirst. set (ins := insertFar (fun p => DistanceSq (spos s) p)). induction pts as [|p l IH]; [reflexivity|].
  change (fold_right ins [] (p :: l)) with (ins p (fold_right ins [] l)). etransitivity; [apply perm_skip, IH|]. apply insertFar_perm.
Qed.
(** The points are really taken farthest first. *)
Theorem C45_order (s : sphere R) (pts : list pt) : Permutation pts (farthestFirst s pts) /\
  forall i j d, (i < j < length (farthestFirst s pts))%nat -> dist (spos s) (nth j (farthestFirst s pts) d) <= dist (spos s) (nth i (farthestFirst s pts) d).
Proof.
  split; [apply farthestFirst_perm|].
  assert (K : forall l : list pt, (forall i j d, (i < j < length l)%nat -> DistanceSq (spos s) (nth j l d) <= DistanceSq (spos s) (nth i l d)) <->
      match l with [] => True | p :: r => (forall q, In q r -> DistanceSq (spos s) q <= DistanceSq (spos s) p) /\ (forall i j d, (i < j < length r)%nat -> DistanceSq (spos s) (nth j r d) <= DistanceSq (spos s) (nth i r d)) end).
  { intros [|p r]; [split; [trivial|cbn; intros; Lia.lia]|]. split.
    - intros H. split.
      + intros q Q. destruct (In_nth r q p Q) as (n & N & <-). apply (H 0%nat (S n) p). cbn. Lia.lia.
      + intros i j d L. apply (H (S i) (S j) d). cbn. Lia.lia.
    - intros [A B] i j d L. cbn [length] in L. destruct j as [|j]; [Lia.lia|]. destruct i as [|i]; cbn [nth]; [apply A, nth_In; Lia.lia|apply B; Lia.lia]. }
  assert (S : forall l, forall i j d, (i < j < length (farthestFirst s l))%nat -> DistanceSq (spos s) (nth j (farthestFirst s l) d) <= DistanceSq (spos s) (nth i (farthestFirst s l) d)).
  { unfold farthestFirst. set (key := fun p => DistanceSq (spos s) p). induction l as [|p l IH]; [cbn; intros; Lia.lia|].
    change (fold_right (insertFar key) [] (p :: l)) with (insertFar key p (fold_right (insertFar key) [] l)). revert IH. generalize (fold_right (insertFar key) [] l). clear l.
    induction l as [|q l IH]; intros H; cbn [insertFar]; [cbn; intros; Lia.lia|]. apply K in H. destruct H as [A B]. rsimpl.
    destruct (Rltb_spec (key q) (key p)) as [L|L]; apply K; (split; [|]).
    - intros x [<-|X]; [unfold key in L; lra|]. specialize (A x X). unfold key in L. lra.
    - apply K. split; assumption.
    - intros x X. apply (Permutation_in _ (Permutation_sym (insertFar_perm key p l))) in X. destruct X as [<-|X]; [unfold key in L; lra|auto].
    - apply IH, B. }
  intros i j d L. specialize (S pts i j d L). rewrite !sq_dist in S. pose proof (dist_pos (spos s) (nth j (farthestFirst s pts) d)). pose proof (dist_pos (spos s) (nth i (farthestFirst s pts) d)). nra.
Qed.
Print Assumptions C45_order.
Theorem C45_enclose_shapes (s : sphere R) (pts : list pt) (l : segment R) (t : triangle R) (b : aabb R) : 1 <= srad s ->
  let grown (s' : sphere R) (A : pt -> Prop) := srad s <= srad s' /\ forall x, in_sphere s x \/ A x -> in_sphere s' x in
  grown (Sphere_EnclosePts s pts) (in_hull pts) /\ grown (Sphere_EncloseSeg s l) (on_segment l) /\ grown (Sphere_EncloseTri s t) (in_triangle t) /\
  grown (Sphere_EncloseAABB s b) (in_box b).
Proof.
  intros S grown.
  assert (G : forall ps, grown (Sphere_EnclosePts s ps) (in_hull ps) /\ forall p, In p ps -> in_sphere (Sphere_EnclosePts s ps) p).
  { intros ps. unfold Sphere_EnclosePts. destruct (C45_history (farthestFirst s ps) s S) as (A & B & C).
    assert (C' : forall p, In p ps -> in_sphere (Sphere_EncloseAll s (farthestFirst s ps)) p) by (intros p P; apply C; eapply Permutation_in; [apply farthestFirst_perm|exact P]).
    split; [|exact C']. split; [exact A|]. intros x [X|X]; [auto|]. apply X; [apply convex_sphere|exact C']. }
  split; [apply G|]. split; [|split].
  - assert (Q : forall p q, (p = seg_a l /\ q = seg_b l) \/ (p = seg_b l /\ q = seg_a l) -> grown (Sphere_Enclose (Sphere_Enclose s p) q) (on_segment l)).
    { intros p q PQ. destruct (C45_history [p; q] s S) as (A & B & C). change (Sphere_EncloseAll s [p; q]) with (Sphere_Enclose (Sphere_Enclose s p) q) in *.
      split; [exact A|]. intros x [X|(k & K & ->)]; [auto|]. pose proof (C p (or_introl eq_refl)) as P1. pose proof (C q (or_intror (or_introl eq_refl))) as Q1.
      apply (convex_sphere (Sphere_Enclose (Sphere_Enclose s p) q)); [| |exact K]; destruct PQ as [[-> ->]|[-> ->]]; assumption. }
    unfold Sphere_EncloseSeg. rsimpl. destruct (Rltb (DistanceSq (spos s) (seg_b l)) (DistanceSq (spos s) (seg_a l))); apply Q; auto.
  - unfold Sphere_EncloseTri. destruct (G [tri_a t; tri_b t; tri_c t]) as [[A B] C]. split; [exact A|]. intros x [X|X]; [auto|].
    eapply tri_convex; [apply convex_sphere| | | |exact X]; apply C; cbn; auto.
  - unfold Sphere_EncloseAABB. destruct (G (map (AABB_CornerPoint b) (seq 0 8))) as [[A B] C]. split; [exact A|]. intros x [X|X]; [auto|].
    apply (box_hull _ b x (convex_sphere _)); [|exact X]. intros i I. apply C. apply in_map, in_seq. Lia.lia.
Qed.
Print Assumptions C45_enclose_shapes.
Example C45_enclose_shapes_witness : 1 <= srad (Sph (V3 0 0 0) 1). Proof. cbn. lra. Qed.

(** Enclosing a ball: its centre must coincide with the sphere's, or be more than 1/1000 away. *)
Lemma Scaled_dir (v : pt) r : v = origin \/ 1 / 1000 <= norm v -> exists u k, unitv u /\ v = scale k u /\ ScaledToLength v r = scale r u.
Proof.
  intros [->|N].
  - exists (V3 1 0 0), 0. split; [unfold unitv, dot; cbn; lra|]. split; [unfold origin, scale; cbn [vx vy vz]; apply vec_ext; cbn [vx vy vz]; ring|].
    unfold ScaledToLength, ScaleToLength. rewrite LengthSq_R. cbv zeta. rewrite nlit_R. rsimpl. unfold origin, dot. cbn [vx vy vz]. rewrite (proj2 (Rltb_true _ _)) by lra. cbn [fst]. unfold scale. cbn [vx vy vz]. apply vec_ext; cbn [vx vy vz]; ring.
  - exists (scale (/ norm v) v), (norm v). assert (P : 0 < norm v) by lra. split; [|split].
    + unfold unitv. rewrite dot_scale_l, dot_scale_r, <- norm_sq. gunf. field. lra.
    + unfold scale. cbn [vx vy vz]. apply vec_ext; cbn [vx vy vz]; field; lra.
    + unfold ScaledToLength, ScaleToLength. rewrite LengthSq_R. cbv zeta. rewrite nlit_R. rsimpl. rewrite (proj2 (Rltb_false _ _)) by (rewrite <- norm_sq; gunf; nra).
      cbn [fst]. change (sqrt (dot v v)) with (norm v). unfold scale. cbn [vx vy vz]. apply vec_ext; cbn [vx vy vz]; field; lra.
Qed.
Lemma Enclose_centre (s : sphere R) p : (p <> spos s \/ 1 / 100 <= srad s) -> 0 <= srad s -> exists k, spos (Sphere_Enclose s p) = plus (spos s) (scale k (minus p (spos s))).
Proof.
  intros N S. rewrite Enclose_R.
  - destruct (Rltb _ _); [eexists; reflexivity|]. exists 0. unfold plus, scale, minus. cbn [vx vy vz]. apply vec_ext; cbn [vx vy vz]; ring.
  - intros Z. destruct N as [N|N]; [exfalso; apply N; symmetry; now apply dist_zero|nra].
Qed.
Definition apart (s : sphere R) (o : sphere R) := spos o = spos s \/ 1 / 1000 <= dist (spos s) (spos o).
Theorem C45_enclose_sphere (s o : sphere R) : 1 <= srad s -> 0 <= srad o -> apart s o ->
  srad s <= srad (Sphere_EncloseSphere s o) /\ forall x, in_sphere s x \/ in_sphere o x -> in_sphere (Sphere_EncloseSphere s o) x.
Proof.
  intros S O A. unfold Sphere_EncloseSphere. cbv zeta.
  destruct (Scaled_dir (minus (spos o) (spos s)) (srad o)) as (u & k & U & K & E).
  { destruct A as [A|A]; [left; rewrite A; unfold minus, origin; apply vec_ext; cbn; ring|right]. rewrite dist_sym in A. exact A. }
  change (@vsub R Num_R) with minus. change (@vadd R Num_R) with plus. rewrite E.
  set (p := plus (spos o) (scale (srad o) u)). set (q := minus (spos o) (scale (srad o) u)).
  destruct (C45_history [p; q] s S) as (H1 & H2 & H3). change (Sphere_EncloseAll s [p; q]) with (Sphere_Enclose (Sphere_Enclose s p) q) in *.
  split; [exact H1|]. intros x [X|X]; [auto|].
  assert (S1 : 1 <= srad (Sphere_Enclose s p)). { destruct (C45_history [p] s S) as (B & _). change (Sphere_EncloseAll s [p]) with (Sphere_Enclose s p) in B. exact (Rle_trans _ _ _ S B). }
  destruct (Enclose_centre s p) as (k1 & K1); [right; lra|lra|]. destruct (Enclose_centre (Sphere_Enclose s p) q) as (k2 & K2); [right; lra|lra|].
  assert (C : exists w, spos (Sphere_Enclose (Sphere_Enclose s p) q) = plus (spos o) (scale w u)).
  { assert (Sp : spos s = plus (spos o) (scale (- k) u)).
    { revert K. destruct (spos o) as [a1x a1y a1z], (spos s) as [a2x a2y a2z], u as [a3x a3y a3z]. unfold minus, plus, scale. cbn [vx vy vz]. intros K. injection K. intros. apply vec_ext; cbn [vx vy vz]; lra. }
    exists (- k + k1 * (srad o + k) + k2 * (- srad o - (- k + k1 * (srad o + k)))).
    rewrite K2, K1, Sp. unfold p, q. destruct (spos o) as [a4x a4y a4z], u as [a5x a5y a5z]. unfold minus, plus, scale. cbn [vx vy vz]. apply vec_ext; cbn [vx vy vz]; ring. }
  destruct C as (w & C). set (s2 := Sphere_Enclose (Sphere_Enclose s p) q) in *.
  assert (D : forall a, dist (spos s2) (plus (spos o) (scale a u)) = Rabs (w - a)).
  { intros a. rewrite C. unfold dist. replace (minus (plus (spos o) (scale w u)) (plus (spos o) (scale a u))) with (scale (w - a) u) by (destruct (spos o) as [a6x a6y a6z], u as [a7x a7y a7z]; unfold minus, plus, scale; cbn [vx vy vz]; apply vec_ext; cbn [vx vy vz]; ring).
    rewrite norm_scale, (proj1 (norm_unit u) U). ring. }
  pose proof (H3 p (or_introl eq_refl)) as P. pose proof (H3 q (or_intror (or_introl eq_refl))) as Q. unfold in_sphere in P, Q.
  unfold p in P. rewrite D in P. replace q with (plus (spos o) (scale (- srad o) u)) in Q by (unfold q; destruct (spos o) as [a8x a8y a8z], u as [a9x a9y a9z]; unfold minus, plus, scale; cbn [vx vy vz]; apply vec_ext; cbn [vx vy vz]; ring). rewrite D in Q.
  pose proof (D 0) as D0. replace (plus (spos o) (scale 0 u)) with (spos o) in D0 by (destruct (spos o) as [a10x a10y a10z], u as [a11x a11y a11z]; unfold plus, scale; cbn [vx vy vz]; apply vec_ext; cbn [vx vy vz]; ring).
  unfold in_sphere in *. pose proof (dist_triangle (spos s2) (spos o) x) as T. rewrite D0 in T.
  assert (Rabs (w - 0) + srad o <= srad s2) by (revert P Q; unfold Rabs; repeat destruct Rcase_abs; lra). lra.
Qed.
Print Assumptions C45_enclose_sphere.
Example C45_enclose_sphere_witness : 1 <= srad (Sph (V3 0 0 0) 1) /\ 0 <= srad (Sph (V3 3 0 0) 2) /\ apart (Sph (V3 0 0 0) 1) (Sph (V3 3 0 0) 2).
Proof.
  cbn [srad]. split; [lra|]. split; [lra|]. right. unfold dist, norm, minus, dot. cbn [spos vx vy vz]. match goal with |- _ <= sqrt ?x => replace x with (3 * 3) by ring end. rewrite sqrt_square; lra.
Qed.
(** Capsules: the two end balls, the one farther away first. *)
Theorem C45_enclose_capsule (s : sphere R) (c : capsule R) : 1 <= srad s -> 0 <= cap_r c ->
  let A := Sph (seg_a (cap_l c)) (cap_r c) in let B := Sph (seg_b (cap_l c)) (cap_r c) in
  let far := if Rltb (dist (spos s) (seg_b (cap_l c))) (dist (spos s) (seg_a (cap_l c))) then A else B in
  let near := if Rltb (dist (spos s) (seg_b (cap_l c))) (dist (spos s) (seg_a (cap_l c))) then B else A in
  apart s far -> apart (Sphere_EncloseSphere s far) near ->
  srad s <= srad (Sphere_EncloseCapsule s c) /\ forall x, in_sphere s x \/ in_capsule c x -> in_sphere (Sphere_EncloseCapsule s c) x.
Proof.
  intros S C A B far near A1 A2.
  assert (E : Sphere_EncloseCapsule s c = Sphere_EncloseSphere (Sphere_EncloseSphere s far) near).
  { unfold Sphere_EncloseCapsule. cbv zeta. fold A B. rewrite !sq_dist. rsimpl. unfold far, near. pose proof (dist_pos (spos s) (seg_a (cap_l c))). pose proof (dist_pos (spos s) (seg_b (cap_l c))).
    destruct (Rltb_spec (dist (spos s) (seg_b (cap_l c))) (dist (spos s) (seg_a (cap_l c)))); [rewrite (proj2 (Rltb_true _ _)) by nra|rewrite (proj2 (Rltb_false _ _)) by nra]; reflexivity. }
  rewrite E. assert (RF : 0 <= srad far) by (unfold far; destruct Rltb; exact C). assert (RN : 0 <= srad near) by (unfold near; destruct Rltb; exact C).
  destruct (C45_enclose_sphere s far S RF A1) as (H1 & H2). destruct (C45_enclose_sphere (Sphere_EncloseSphere s far) near (Rle_trans _ _ _ S H1) RN A2) as (H3 & H4).
  split; [exact (Rle_trans _ _ _ H1 H3)|]. set (r := Sphere_EncloseSphere (Sphere_EncloseSphere s far) near) in *.
  assert (G : forall x, in_sphere A x \/ in_sphere B x -> in_sphere r x).
  { intros x X. assert (in_sphere far x \/ in_sphere near x) as [Y|Y] by (unfold far, near; destruct Rltb; tauto); apply H4; auto. }
  intros x [X|X]; [auto|]. destruct X as (y & (k & K & Y) & D).
  set (v := minus x y). assert (Pa : in_sphere r (plus (seg_a (cap_l c)) v)). { apply G. left. unfold in_sphere, A, dist. cbn [spos srad]. replace (minus (seg_a (cap_l c)) (plus (seg_a (cap_l c)) v)) with (minus y x); [exact D|]. unfold v. destruct (seg_a (cap_l c)) as [a12x a12y a12z], x as [a13x a13y a13z], y as [a14x a14y a14z]. unfold minus, plus. cbn [vx vy vz]. apply vec_ext; cbn [vx vy vz]; ring. }
  assert (Pb : in_sphere r (plus (seg_b (cap_l c)) v)). { apply G. right. unfold in_sphere, B, dist. cbn [spos srad]. replace (minus (seg_b (cap_l c)) (plus (seg_b (cap_l c)) v)) with (minus y x); [exact D|]. unfold v. destruct (seg_b (cap_l c)) as [a15x a15y a15z], x as [a16x a16y a16z], y as [a17x a17y a17z]. unfold minus, plus. cbn [vx vy vz]. apply vec_ext; cbn [vx vy vz]; ring. }
  pose proof (convex_sphere r _ _ k Pa Pb K) as W. match type of W with in_sphere _ ?z => replace x with z; [exact W|] end.
  unfold v. rewrite Y. destruct (seg_a (cap_l c)) as [a18x a18y a18z], (seg_b (cap_l c)) as [a19x a19y a19z], x as [a20x a20y a20z]. unfold along, minus, plus, scale. cbn [vx vy vz]. apply vec_ext; cbn [vx vy vz]; ring.
Qed.
Print Assumptions C45_enclose_capsule.

(** Without [apart] the far point is searched along +x, and the ball is not enclosed: unit ball at the origin, ball of radius 2
    half a millimetre above it. *)
Theorem C45_enclose_sphere_refuted : exists (s o : sphere R) (x : pt), 1 <= srad s /\ 0 <= srad o /\ in_sphere o x /\ ~ in_sphere (Sphere_EncloseSphere s o) x.
Proof.
  set (e := 9 / 10000). exists (Sph (V3 0 0 0) 1), (Sph (V3 0 e 0) 2), (V3 0 (2 + e) 0). cbn [srad spos]. split; [lra|]. split; [lra|]. split.
  { unfold in_sphere, dist, norm, minus, dot. cbn [spos srad vx vy vz]. match goal with |- sqrt ?x <= _ => replace x with (2 * 2) by ring end. rewrite sqrt_square; lra. }
  unfold Sphere_EncloseSphere. cbn [spos srad]. cbv zeta.
  assert (F : ScaledToLength (vsub (V3 0 e 0) (V3 0 0 0)) 2 = V3 2 0 0).
  { unfold ScaledToLength, ScaleToLength. rewrite LengthSq_R. cbv zeta. rewrite nlit_R. rsimpl. unfold vsub, dot. rsimpl. cbn [vx vy vz]. rewrite (proj2 (Rltb_true _ _)) by (unfold e; lra). reflexivity. }
  rewrite F. unfold vadd, vsub. cbn [vx vy vz]. rsimpl.
  set (p := V3 (0 + 2) (e + 0) (0 + 0)). set (q := V3 (0 - 2) (e - 0) (0 - 0)).
  set (d1 := dist (V3 0 0 0) p). assert (Q1 : d1 * d1 = 4 + e * e). { unfold d1, dist. rewrite norm_sq. unfold p, dot, minus. cbn [vx vy vz]. ring. }
  assert (P1 : 0 <= d1) by apply dist_pos. assert (B1 : 2 <= d1 <= 2 + 1 / 1000000) by (unfold e in Q1; nra).
  rewrite (Enclose_R (Sph (V3 0 0 0) 1) p); cbn [srad spos]; fold d1; [|lra]. rewrite (proj2 (Rltb_true _ _)) by nra.
  set (k1 := (d1 - 1) / 2 / d1). assert (K1 : 2499 / 10000 <= k1 <= 2501 / 10000).
  { assert (k1 * d1 = (d1 - 1) / 2) by (unfold k1; field; lra). nra. }
  set (c1 := plus (V3 0 0 0) (scale k1 (minus p (V3 0 0 0)))). set (r1 := (1 + d1) / 2 + 1 / 10000). assert (R1 : 15001 / 10000 <= r1 <= 15002 / 10000) by (unfold r1; lra).
  set (d2 := dist c1 q). assert (Q2 : d2 * d2 = 4 * ((1 + k1) * (1 + k1)) + e * e * ((1 - k1) * (1 - k1))). { unfold d2, dist. rewrite norm_sq. unfold c1, p, q, dot, minus, plus, scale. cbn [vx vy vz]. ring. }
  assert (D1 : d1 = 2 * (1 + 2 * ((d1 - 2) / 4))) by lra.
  assert (P2 : 0 <= d2) by apply dist_pos.
  assert (K1' : k1 <= 1 / 4 + 1 / 1000000). { assert (k1 * d1 = (d1 - 1) / 2) by (unfold k1; field; lra). nra. }
  assert (B2 : 2499 / 1000 <= d2 <= 25 / 10 + 1 / 100000) by (unfold e in Q2; nra).
  rewrite (Enclose_R (Sph c1 r1) q); cbn [srad spos]; fold d2; [|lra]. rewrite (proj2 (Rltb_true _ _)) by nra.
  set (k2 := (d2 - r1) / 2 / d2). assert (K2 : 0 <= k2 <= 21 / 100). { assert (k2 * d2 = (d2 - r1) / 2) by (unfold k2; field; lra). nra. }
  set (c2 := plus c1 (scale k2 (minus q c1))). assert (Y : vy c2 = e * (k1 + k2 * (1 - k1))). { unfold c2, c1, p, q, plus, scale, minus. cbn [vx vy vz]. ring. }
  unfold in_sphere. cbn [spos srad]. apply Rlt_not_le.
  assert (G : 2 + e - vy c2 <= dist c2 (V3 0 (2 + e) 0)).
  { assert (0 <= dist c2 (V3 0 (2 + e) 0)) by apply dist_pos. assert (dist c2 (V3 0 (2 + e) 0) * dist c2 (V3 0 (2 + e) 0) = vx c2 * vx c2 + (2 + e - vy c2) * (2 + e - vy c2) + vz c2 * vz c2) by (unfold dist; rewrite norm_sq; unfold dot, minus; cbn [vx vy vz]; ring).
    pose proof (Rle_0_sqr (vx c2)). pose proof (Rle_0_sqr (vz c2)). unfold Rsqr in *. nra. }
  assert (vy c2 <= e * (5 / 10)) by (rewrite Y; unfold e; nra). assert (r1 <= 15001 / 10000 + 1 / 1000000) by (unfold r1; lra). unfold e in *. lra.
Qed.
Print Assumptions C45_enclose_sphere_refuted.

(** Growing only the radius: minimal up to epsilon, and along every history everything stays inside. *)
Lemma Extend_R (s : sphere R) p e : Sphere_ExtendRadius s p e = Sph (spos s) (Rmax (srad s) (dist (spos s) p + e)).
Proof. unfold Sphere_ExtendRadius. rewrite Max_R. reflexivity. Qed.
Lemma ExtendS_R (s o : sphere R) e : Sphere_ExtendRadiusSphere s o e = Sph (spos s) (Rmax (srad s) (dist (spos s) (spos o) + srad o + e)).
Proof. unfold Sphere_ExtendRadiusSphere. rewrite Max_R. reflexivity. Qed.
Theorem C45_extend_radius (s o : sphere R) (p : pt) (e : R) : 0 <= e -> 0 <= srad o ->
  (let s' := Sphere_ExtendRadius s p e in
   spos s' = spos s /\ in_sphere s' p /\ (forall x, in_sphere s x -> in_sphere s' x) /\
   forall r, srad s <= r -> in_sphere (Sph (spos s) r) p -> srad s' <= r + e) /\
  (let s' := Sphere_ExtendRadiusSphere s o e in
   spos s' = spos s /\ (forall x, in_sphere o x \/ in_sphere s x -> in_sphere s' x) /\
   forall r, srad s <= r -> (forall x, in_sphere o x -> in_sphere (Sph (spos s) r) x) -> srad s' <= r + e).
Proof.
  intros E O. rewrite Extend_R, ExtendS_R. unfold in_sphere. cbn [spos srad].
  pose proof (Rmax_l (srad s) (dist (spos s) p + e)). pose proof (Rmax_r (srad s) (dist (spos s) p + e)).
  pose proof (Rmax_l (srad s) (dist (spos s) (spos o) + srad o + e)). pose proof (Rmax_r (srad s) (dist (spos s) (spos o) + srad o + e)).
  split; split; try reflexivity; (split; [|try split]).
  - lra.
  - intros x X. lra.
  - intros r R1 R2. apply Rmax_lub; lra.
  - intros x [X|X]; [|lra]. pose proof (dist_triangle (spos s) (spos o) x). lra.
  - intros r R1 R2. apply Rmax_lub; [lra|]. destruct (farthest (spos s) (spos o) (srad o) O) as (x & X1 & X2). specialize (R2 x (Req_le _ _ X1)). lra.
Qed.
Print Assumptions C45_extend_radius.
Theorem C45_extend_history (pts : list pt) (s : sphere R) (e : R) : 0 <= e ->
  let s' := fold_left (fun s p => Sphere_ExtendRadius s p e) pts s in
  spos s' = spos s /\ (forall x, in_sphere s x -> in_sphere s' x) /\ (forall p, In p pts -> in_sphere s' p) /\
  forall r, srad s <= r + e -> (forall p, In p pts -> in_sphere (Sph (spos s) r) p) -> srad s' <= r + e.
Proof.
  intros E. revert s. induction pts as [|p pts IH]; intros s; cbn [fold_left].
  - split; [reflexivity|]. split; [auto|]. split; [intros p []|]. intros r L _. lra.
  - destruct (IH (Sphere_ExtendRadius s p e)) as (A & B & C & D). rewrite Extend_R in *. cbn [spos srad] in *. unfold in_sphere in B, C, D |- *. cbn [spos srad] in *.
    pose proof (Rmax_l (srad s) (dist (spos s) p + e)). pose proof (Rmax_r (srad s) (dist (spos s) p + e)).
    split; [exact A|]. split; [intros x X; apply B; lra|]. split; [intros q [<-|Q]; [apply B; lra|auto]|].
    intros r L Q. pose proof (Q p (or_introl eq_refl)) as Qp.
    apply D; [apply Rmax_lub; lra|]. intros q I. apply Q. now right.
Qed.
Print Assumptions C45_extend_history.

(** FastEnclosingSphere contains every given point when two of them differ by at least 2 in x. *)
Theorem C45_fast (pts : list pt) (p q : pt) : In p pts -> In q pts -> 2 <= vx q - vx p ->
  exists s, Sphere_FastEnclosing pts = Some s /\ forall x, in_hull pts x -> in_sphere s x.
Proof.
  intros P Q L. destruct pts as [|p0 l]; [destruct P|]. unfold Sphere_FastEnclosing. set (pts := p0 :: l) in *.
  pose proof (C24_extreme_points_of_array (T := R) pts p0 ltac:(discriminate) ltac:(intros; now split; [|split])) as X.
  destruct (AABB_ExtremePointsAlongAABB pts) as [[[[[minx maxx] miny] maxy] minz] maxz]. destruct X as [_ X].
  cbv zeta. rewrite !sq_dist. rsimpl. set (dx := dist (nth minx pts p0) (nth maxx pts p0)).
  assert (DX : 2 <= dx).
  { destruct (X p P) as (X1 & _). destruct (X q Q) as (_ & X2 & _). rsimpl. apply Rleb_true in X1, X2.
    assert (H : vx (nth maxx pts p0) - vx (nth minx pts p0) <= dx).
    { unfold dx, dist. set (v := minus (nth minx pts p0) (nth maxx pts p0)). assert (vx v = vx (nth minx pts p0) - vx (nth maxx pts p0)) by reflexivity.
      pose proof (norm_sq v). pose proof (norm_pos v). unfold dot in *. pose proof (Rle_0_sqr (vy v)). pose proof (Rle_0_sqr (vz v)). unfold Rsqr in *. nra. }
    lra. }
  assert (M : forall i j, 2 <= dist (nth i pts p0) (nth j pts p0) ->
    exists s, (let (mn, mx) := (i, j) in Some (fold_left Sphere_Enclose pts (Sph (vmuls (vadd (nth mn pts p0) (nth mx pts p0)) nhalf)
      (Distance (nth mn pts p0) (vmuls (vadd (nth mn pts p0) (nth mx pts p0)) nhalf))))) = Some s /\ forall x, in_hull pts x -> in_sphere s x).
  { intros i j D. eexists. split; [reflexivity|]. set (s0 := Sph _ _). destruct (C45_history pts s0) as (_ & _ & H).
    - unfold s0. cbn [srad]. change (@Distance R Num_R) with dist.
      replace (dist (nth i pts p0) (vmuls (vadd (nth i pts p0) (nth j pts p0)) nhalf)) with (/ 2 * dist (nth i pts p0) (nth j pts p0)); [lra|].
      unfold dist. rewrite <- (Rabs_pos_eq (/ 2)) at 1 by lra. rewrite <- norm_scale. f_equal. rewrite vmuls_R. unfold vadd, nhalf. rsimpl. unfold scale, minus. cbn [vx vy vz]. apply vec_ext; cbn [vx vy vz]; rnum; field.
    - intros x Hx. apply Hx; [apply convex_sphere|exact H]. }
  destruct (Rltb_spec (dx * dx) (dist (nth miny pts p0) (nth maxy pts p0) * dist (nth miny pts p0) (nth maxy pts p0))) as [A|A]; cbn [andb].
  - destruct (Rltb _ _); [apply M; pose proof (dist_pos (nth miny pts p0) (nth maxy pts p0)); nra|].
    destruct (Rltb_spec (dx * dx) (dist (nth minz pts p0) (nth maxz pts p0) * dist (nth minz pts p0) (nth maxz pts p0))) as [B|B]; cbn [andb]; [|now apply M].
    destruct (Rltb _ _); [apply M; pose proof (dist_pos (nth minz pts p0) (nth maxz pts p0)); nra|now apply M].
  - destruct (Rltb_spec (dx * dx) (dist (nth minz pts p0) (nth maxz pts p0) * dist (nth minz pts p0) (nth maxz pts p0))) as [B|B]; cbn [andb]; [|now apply M].
    destruct (Rltb _ _); [apply M; pose proof (dist_pos (nth minz pts p0) (nth maxz pts p0)); nra|now apply M].
Qed.
Print Assumptions C45_fast.
Example C45_fast_witness : In (V3 0 0 0) [V3 0 0 0; V3 1 5 1; V3 3 0 0 : pt] /\ In (V3 3 0 0) [V3 0 0 0; V3 1 5 1; V3 3 0 0 : pt] /\ 2 <= vx (V3 3 0 0) - vx (V3 0 0 0).
Proof. cbn. split; [auto|]. split; [auto|lra]. Qed.
