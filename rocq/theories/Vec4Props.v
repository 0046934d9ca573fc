(** float4: property C106. *)
From Coq Require Import Reals Lra Psatz Bool.
From Verif Require Import Num NumR ScalarModel ScalarProofs Vec3Model GeoTypes GeoSpec GeoLemmas F32 F32Laws Vec3Misc MatModel MatSpec RotModel RotProofs3 RotProofs5 Vec2Props Vec3Props Vec4Model Vec4Spec Vec4Proofs.
Open Scope R_scope.

(** * Order-only facts, for every number type with a total order on its admissible values *)
Section Ord.
  Context {T : Type} `{OL : OrdLaws T}.
  Local Notation "a <== b" := (nleb a b = true) (at level 70).
  Definition ok4 (v : v4 T) : Prop := ok (w0 v) /\ ok (w1 v) /\ ok (w2 v) /\ ok (w3 v).
  Lemma min_spec4 (x y : T) : ok x -> ok y -> ok (Min x y) /\ Min x y <== x /\ Min x y <== y /\ (Min x y = x \/ Min x y = y).
  Proof.
    intros Hx Hy. unfold Min. pose proof (leb_refl' x Hx). pose proof (leb_refl' y Hy). destruct (nleb x y) eqn:E; auto 6.
    pose proof (leb_false x y Hx Hy E). auto 6.
  Qed.
  Lemma max_spec4 (x y : T) : ok x -> ok y -> ok (Max x y) /\ x <== Max x y /\ y <== Max x y /\ (Max x y = x \/ Max x y = y).
  Proof.
    intros Hx Hy. unfold Max. pose proof (leb_refl' x Hx). pose proof (leb_refl' y Hy). destruct (nleb y x) eqn:E; auto 6.
    pose proof (leb_false y x Hy Hx E). auto 6.
  Qed.
  (** The smallest element, its index and the index of the largest are right. *)
  Theorem C106_elements (v : v4 T) : ok4 v ->
    (forall i, MinElement4 v <== comp4 v i) /\ (exists i, (i < 4)%nat /\ MinElement4 v = comp4 v i) /\
    (forall i, comp4 v (MinElementIndex4 v) <== comp4 v i /\ comp4 v i <== comp4 v (MaxElementIndex4 v)) /\
    (MinElementIndex4 v < 4)%nat /\ (MaxElementIndex4 v < 4)%nat.
  Proof.
    destruct v as [x y z w]. intros (Hx & Hy & Hz & Hw). cbn [w0 w1 w2 w3] in *.
    assert (L : forall P : nat -> Prop, P 0%nat -> P 1%nat -> P 2%nat -> (forall n, P (S (S (S n)))) -> forall i, P i).
    { intros P P0 P1 P2 Pn [|[|[|n]]]; easy. }
    destruct (min_spec4 x y Hx Hy) as (Oa & A1 & A2 & A3). destruct (min_spec4 z w Hz Hw) as (Ob & B1 & B2 & B3).
    destruct (min_spec4 _ _ Oa Ob) as (Om & M1 & M2 & M3).
    split; [|split; [|split]].
    - apply L; [exact (leb_trans _ _ _ M1 A1)|exact (leb_trans _ _ _ M1 A2)|exact (leb_trans _ _ _ M2 B1)|intros n; exact (leb_trans _ _ _ M2 B2)].
    - destruct M3 as [E|E]; change (MinElement4 (X4 x y z w)) with (Min (Min x y) (Min z w)); rewrite E.
      + destruct A3 as [->| ->]; [exists 0%nat|exists 1%nat]; split; auto.
      + destruct B3 as [->| ->]; [exists 2%nat|exists 3%nat]; split; auto.
    - clear M1 M2 M3 Om A1 A2 A3 B1 B2 B3 Oa Ob. unfold MinElementIndex4, MaxElementIndex4. cbn [w0 w1 w2 w3].
      assert (Lt : forall a b : T, ok a -> ok b -> nltb a b = negb (nleb b a)) by (intros; now apply ltb_leb).
      rewrite !Lt by assumption.
      pose proof (leb_refl' x Hx) as Rx. pose proof (leb_refl' y Hy) as Ry. pose proof (leb_refl' z Hz) as Rz. pose proof (leb_refl' w Hw) as Rw.
      assert (F : forall a b : T, ok a -> ok b -> nleb a b = false -> a <== b -> False) by (intros; congruence).
      pose proof leb_false as LF. pose proof leb_trans as TR.
      intros i. split.
      + destruct (nleb y x) eqn:A, (nleb w z) eqn:B; cbn [negb].
        * destruct (nleb w y) eqn:C; cbn [negb comp4 w0 w1 w2 w3]; revert i; apply L; try intros n; cbn [comp4 w0 w1 w2 w3]; eauto 4.
        * destruct (nleb z y) eqn:C; cbn [negb comp4 w0 w1 w2 w3]; revert i; apply L; try intros n; cbn [comp4 w0 w1 w2 w3]; eauto 4.
        * destruct (nleb w x) eqn:C; cbn [negb comp4 w0 w1 w2 w3]; revert i; apply L; try intros n; cbn [comp4 w0 w1 w2 w3]; eauto 4.
        * destruct (nleb z x) eqn:C; cbn [negb comp4 w0 w1 w2 w3]; revert i; apply L; try intros n; cbn [comp4 w0 w1 w2 w3]; eauto 4.
      + destruct (nleb x y) eqn:A, (nleb z w) eqn:B; cbn [negb].
        * destruct (nleb y w) eqn:C; cbn [negb comp4 w0 w1 w2 w3]; revert i; apply L; try intros n; cbn [comp4 w0 w1 w2 w3]; eauto 4.
        * destruct (nleb y z) eqn:C; cbn [negb comp4 w0 w1 w2 w3]; revert i; apply L; try intros n; cbn [comp4 w0 w1 w2 w3]; eauto 4.
        * destruct (nleb x w) eqn:C; cbn [negb comp4 w0 w1 w2 w3]; revert i; apply L; try intros n; cbn [comp4 w0 w1 w2 w3]; eauto 4.
        * destruct (nleb x z) eqn:C; cbn [negb comp4 w0 w1 w2 w3]; revert i; apply L; try intros n; cbn [comp4 w0 w1 w2 w3]; eauto 4.
    - unfold MinElementIndex4, MaxElementIndex4. cbn [w0 w1 w2 w3]. split; repeat match goal with |- context [if ?c then _ else _] => destruct c end; auto.
  Qed.
  (** What [MaxElement] really is: the largest of x, y and the SMALLER of z and w. *)
  Theorem C106_max_element_actual (v : v4 T) : ok4 v ->
    w0 v <== MaxElement4 v /\ w1 v <== MaxElement4 v /\ (w2 v <== MaxElement4 v \/ w3 v <== MaxElement4 v) /\
    (exists i, (i < 4)%nat /\ MaxElement4 v = comp4 v i) /\
    ((forall i, comp4 v i <== MaxElement4 v) <-> (w2 v <== MaxElement4 v /\ w3 v <== MaxElement4 v)).
  Proof.
    destruct v as [x y z w]. intros (Hx & Hy & Hz & Hw). cbn [w0 w1 w2 w3] in *.
    destruct (max_spec4 x y Hx Hy) as (Oa & A1 & A2 & A3). destruct (min_spec4 z w Hz Hw) as (Ob & B1 & B2 & B3).
    destruct (max_spec4 _ _ Oa Ob) as (Om & M1 & M2 & M3).
    assert (X : x <== MaxElement4 (X4 x y z w)) by exact (leb_trans _ _ _ A1 M1).
    assert (Y : y <== MaxElement4 (X4 x y z w)) by exact (leb_trans _ _ _ A2 M1).
    split; [exact X|]. split; [exact Y|]. split; [|split].
    - destruct B3 as [E|E]; [left|right]; apply (leb_trans _ (Min z w)); try exact M2; rewrite E; now apply leb_refl'.
    - destruct M3 as [E|E]; change (MaxElement4 (X4 x y z w)) with (Max (Max x y) (Min z w)); rewrite E.
      + destruct A3 as [->| ->]; [exists 0%nat|exists 1%nat]; split; auto.
      + destruct B3 as [->| ->]; [exists 2%nat|exists 3%nat]; split; auto.
    - split; intros A; [split; [apply (A 2%nat)|apply (A 3%nat)]|]. destruct A as [A B]. intros [|[|[|i]]]; cbn [comp4 w0 w1 w2 w3]; easy.
  Qed.
  (** Componentwise Min, Max and Clamp. *)
  Theorem C106_min_max (a b : v4 T) : ok4 a -> ok4 b -> forall i,
    comp4 (Min4v a b) i <== comp4 a i /\ comp4 (Min4v a b) i <== comp4 b i /\ (comp4 (Min4v a b) i = comp4 a i \/ comp4 (Min4v a b) i = comp4 b i) /\
    comp4 a i <== comp4 (Max4v a b) i /\ comp4 b i <== comp4 (Max4v a b) i /\ (comp4 (Max4v a b) i = comp4 a i \/ comp4 (Max4v a b) i = comp4 b i).
  Proof.
    intros (A0 & A1 & A2 & A3) (B0 & B1 & B2 & B3).
    assert (G : forall x y, ok x -> ok y -> Min x y <== x /\ Min x y <== y /\ (Min x y = x \/ Min x y = y) /\ x <== Max x y /\ y <== Max x y /\ (Max x y = x \/ Max x y = y)).
    { intros x y Hx Hy. destruct (min_spec4 x y Hx Hy) as (_ & P1 & P2 & P3). destruct (max_spec4 x y Hx Hy) as (_ & Q1 & Q2 & Q3). auto 8. }
    intros [|[|[|i]]]; cbn [comp4 Min4v Max4v zip4 w0 w1 w2 w3]; now apply G.
  Qed.
  Theorem C106_clamp (v lo hi : v4 T) : ok4 v -> (forall i, comp4 lo i <== comp4 hi i) -> forall i,
    comp4 lo i <== comp4 (Clamp4 v lo hi) i /\ comp4 (Clamp4 v lo hi) i <== comp4 hi i /\
    (comp4 lo i <== comp4 v i -> comp4 v i <== comp4 hi i -> comp4 (Clamp4 v lo hi) i = comp4 v i).
  Proof.
    intros (A0 & A1 & A2 & A3) L.
    assert (G : forall x l h, ok x -> l <== h -> l <== Clamp x l h /\ Clamp x l h <== h /\ (l <== x -> x <== h -> Clamp x l h = x)).
    { intros x l h Hx LH. destruct (leb_ok l h LH) as [Hl Hh]. unfold Clamp. pose proof (leb_refl' l Hl). pose proof (leb_refl' h Hh).
      destruct (nleb x h) eqn:B; [destruct (nleb l x) eqn:A|]; repeat split; auto; congruence. }
    intros [|[|[|i]]]; cbn [comp4 Clamp4 w0 w1 w2 w3]; apply G; try assumption; [apply (L 0%nat)|apply (L 1%nat)|apply (L 2%nat)|apply (L 3%nat)].
  Qed.
End Ord.
Print Assumptions C106_elements.
Print Assumptions C106_max_element_actual.
Print Assumptions C106_min_max.
Print Assumptions C106_clamp.
Theorem C106_elements_f32 (v : v4 f32) : ok4 v -> forall i,
  nleb (comp4 v (MinElementIndex4 v)) (comp4 v i) = true /\ nleb (comp4 v i) (comp4 v (MaxElementIndex4 v)) = true /\ nleb (MinElement4 v) (comp4 v i) = true.
Proof. intros A i. destruct (C106_elements v A) as (M & _ & I & _). split; [apply I|]. split; [apply I|apply M]. Qed.
Print Assumptions C106_elements_f32.
(** Finding: [MaxElement] misses the largest element when it is z or w, and disagrees with [MaxElementIndex]. *)
Theorem C106_max_element_refuted : exists v : q4, MaxElement4 v = 0 /\ MaxElementIndex4 v = 2%nat /\ comp4 v 2 = 5.
Proof.
  exists (X4 0 0 5 0). unfold MaxElement4, MaxElementIndex4. cbn [w0 w1 w2 w3]. rewrite !Max_R, Min_R. rsimpl.
  rewrite (Rmin_right 5 0), (Rmax_left 0 0), (Rmax_left 0 0) by lra.
  rewrite (proj2 (Rltb_false 0 0)) by lra. rewrite !(proj2 (Rltb_true 0 5)) by lra. rewrite (proj2 (Rltb_false 5 0)) by lra. repeat split.
Qed.
Print Assumptions C106_max_element_refuted.
Example C106_elements_witness : ok4 (X4 2 1 3 (4 : R)) /\ MaxElementIndex4 (X4 2 1 3 (4:R)) = 3%nat.
Proof. split; [easy|]. unfold MaxElementIndex4. cbn [w0 w1 w2 w3]. rsimpl. repeat (rcase; try (exfalso; lra)). easy. Qed.

(** * Lengths, distances, normalisation *)
Theorem C106_lengths (v : q4) : Length3 v = norm (part3 v) /\ LengthSq3 v = norm (part3 v) * norm (part3 v) /\ Length4 v = nrm4 v /\ LengthSq4 v = nrm4 v * nrm4 v /\
  (Length4 v = 0 <-> v = X4 0 0 0 0) /\ (forall s, Length4 (mul4s v s) = Rabs s * Length4 v).
Proof.
  split; [reflexivity|]. split; [now rewrite norm_sq|]. split; [reflexivity|]. split; [now rewrite nrm4_sq|]. split.
  - split; intros E.
    + change (nrm4 v = 0) in E. assert (Z : dotp4 v v = 0) by (rewrite <- nrm4_sq, E; ring). clear E. destruct v as [x y z w]. u4. f_equal; nra.
    + subst v. change (nrm4 (X4 0 0 0 0) = 0). unfold nrm4. u4. replace (0*0+0*0+0*0+0*0) with 0 by ring. apply sqrt_0.
  - intros s. rewrite mul4s_R. apply nrm4_sc.
Qed.
Print Assumptions C106_lengths.
Theorem C106_distances (a b c : q4) :
  Distance4 a b = dst4 a b /\ Distance4Sq a b = dst4 a b * dst4 a b /\ Distance3 a b = dist (part3 a) (part3 b) /\ Distance3Sq a b = dist (part3 a) (part3 b) * dist (part3 a) (part3 b) /\
  Distance4 a b = Distance4 b a /\ (Distance4 a b = 0 <-> a = b) /\ Distance4 a c <= Distance4 a b + Distance4 b c.
Proof.
  assert (E4 : forall x y : q4, Distance4Sq x y = dotp4 (lin4 1 x (-1) y) (lin4 1 x (-1) y)) by (intros; unfold Distance4Sq; rsimpl; u4; ring).
  assert (D4 : forall x y : q4, Distance4 x y = dst4 x y) by (intros; unfold Distance4; rewrite E4; reflexivity).
  assert (E3 : Distance3Sq a b = dot (minus (part3 a) (part3 b)) (minus (part3 a) (part3 b))) by reflexivity.
  split; [apply D4|]. split; [unfold dst4; rewrite nrm4_sq; apply E4|]. split; [reflexivity|]. split; [unfold dist; rewrite norm_sq; exact E3|].
  rewrite !D4. split; [|split].
  - unfold dst4, nrm4. f_equal. u4. ring.
  - destruct (C106_lengths (lin4 1 a (-1) b)) as (_ & _ & _ & _ & Z & _). unfold dst4. rewrite Length4_R in Z. rewrite Z. clear. split; intros E.
    + injection E as A B C D. destruct a, b; u4. f_equal; lra.
    + subst. apply v4_ext; u4; ring.
  - unfold dst4. set (p := lin4 1 a (-1) b). set (q := lin4 1 b (-1) c).
    replace (lin4 1 a (-1) c) with (lin4 1 p 1 q) by (apply v4_ext; unfold p, q; u4; ring).
    pose proof (nrm4_sq (lin4 1 p 1 q)) as S. rewrite dotp4_lin_l, !dotp4_lin_r, (dotp4_comm q p), <- (nrm4_sq p), <- (nrm4_sq q) in S.
    pose proof (dotp4_cauchy p q) as Cs. rewrite <- (nrm4_sq p), <- (nrm4_sq q) in Cs.
    pose proof (nrm4_pos p). pose proof (nrm4_pos q). pose proof (nrm4_pos (lin4 1 p 1 q)). revert S Cs H H0 H1.
    generalize (nrm4 (lin4 1 p 1 q)) (nrm4 p) (nrm4 q) (dotp4 p q). clear. intros n x y d S Cs X Y N.
    assert (d <= x * y). { destruct (Rle_lt_dec d (x * y)) as [|L]; [assumption|]. assert (0 <= x * y) by nra. nra. }
    assert (n * n <= (x + y) * (x + y)) by nra. destruct (Rle_lt_dec n (x + y)) as [|L]; [assumption|nra].
Qed.
Print Assumptions C106_distances.
(** Normalize and Normalize3: the result always has unit length; away from zero it keeps the direction and the old length is returned. *)
Theorem C106_normalize (v : q4) :
  let r := Normalize4 v in
  unit4 (fst r) /\ (1/1000 < nrm4 v -> snd r = nrm4 v /\ sc4 (snd r) (fst r) = v) /\ (nrm4 v <= 1/1000 -> r = (X4 1 0 0 0, 0)).
Proof.
  cbv zeta. split; [apply Normalize4_unit|]. rewrite Normalize4_R. destruct (Rltb_spec (1/1000) (nrm4 v)) as [A|A]; cbn [fst snd]; split; intros B; try (exfalso; lra); [|reflexivity].
  split; [reflexivity|]. apply v4_ext; unfold sc4; cbn [w0 w1 w2 w3]; field; lra.
Qed.
Print Assumptions C106_normalize.
Theorem C106_normalize3 (v : q4) :
  let r := Normalize3 v in
  unitv (part3 (fst r)) /\ w3 (fst r) = w3 v /\ (1/1000 < norm (part3 v) -> snd r = norm (part3 v) /\ scale (snd r) (part3 (fst r)) = part3 v) /\ (norm (part3 v) <= 1/1000 -> r = (X4 1 0 0 (w3 v), 0)).
Proof.
  cbv zeta. rewrite Normalize3_R. destruct (Rltb_spec (1/1000) (norm (part3 v))) as [A|A]; cbn [fst snd].
  - change (part3 (x34 (scale (/ norm (part3 v)) (part3 v)) (w3 v))) with (scale (/ norm (part3 v)) (part3 v)). split; [apply scale_unit; lra|]. split; [reflexivity|].
    split; intros B; [|exfalso; lra]. split; [reflexivity|]. apply vec_ext; unfold scale; cbn [vx vy vz]; field; lra.
  - split; [unfold unitv, dot, part3; cbn; ring|]. split; [reflexivity|]. split; intros B; [exfalso; lra|reflexivity].
Qed.
Print Assumptions C106_normalize3.
(** NormalizeW keeps the point the homogeneous vector denotes and makes w 1, unless |w| <= 1e-6, when nothing changes. *)
Theorem C106_normalize_w (v : q4) :
  (1/1000000 < Rabs (w3 v) -> w3 (NormalizeW v) = 1 /\ dehom (NormalizeW v) = dehom v /\ NormalizeW v = hpoint (dehom v)) /\ (Rabs (w3 v) <= 1/1000000 -> NormalizeW v = v).
Proof.
  unfold NormalizeW. rewrite Abs_R. rsimpl. destruct (Rltb_spec (1/1000000) (Rabs (w3 v))) as [A|A]; split; intros B; try (exfalso; lra); [|reflexivity].
  assert (W : w3 v <> 0) by (intros Z; rewrite Z, Rabs_R0 in A; lra). cbn [w3]. split; [reflexivity|].
  split; [apply vec_ext; unfold dehom; cbn [w0 w1 w2 w3 vx vy vz]; field; exact W|apply v4_ext; unfold hpoint, dehom; cbn [w0 w1 w2 w3 vx vy vz]; try reflexivity; field; exact W].
Qed.
Print Assumptions C106_normalize_w.
Theorem C106_scale_to_length (v : q4) (s : R) : 0 <= s ->
  (0 < nrm4 v -> let r := ScaleToLength4 v s in nrm4 (fst r) = s /\ snd r = nrm4 v /\ sc4 (nrm4 v) (fst r) = sc4 s v) /\
  (1/1000 <= norm (part3 v) -> let r := ScaleToLength3 v s in norm (part3 (fst r)) = s /\ snd r = norm (part3 v) /\ w3 (fst r) = w3 v /\ scale (norm (part3 v)) (part3 (fst r)) = scale s (part3 v)) /\
  (norm (part3 v) < 1/1000 -> ScaleToLength3 v s = (v, 0)).
Proof.
  intros S. split; [|split].
  - intros P r. unfold r, ScaleToLength4. change (Length4 v) with (nrm4 v). cbv zeta. rewrite mul4s_R. cbn [fst snd]. rsimpl. split; [|split; [reflexivity|]].
    + rewrite nrm4_sc. rewrite Rabs_pos_eq; [field; lra|]. apply Rmult_le_pos; [exact S|]. left. now apply Rinv_0_lt_compat.
    + apply v4_ext; unfold sc4; cbn [w0 w1 w2 w3]; field; lra.
  - intros P r. unfold r, ScaleToLength3. change (LengthSq3 v) with (dot (part3 v) (part3 v)). cbv zeta. change (nsqrt (dot (part3 v) (part3 v))) with (norm (part3 v)). rsimpl.
    rewrite (proj2 (Rltb_false _ _)) by (pose proof (norm_sq (part3 v)); nra). cbn [fst snd]. unfold Scale3. rsimpl.
    replace (part3 _) with (scale (s / norm (part3 v)) (part3 v)) by (apply vec_ext; unfold scale, part3; cbn [vx vy vz w0 w1 w2]; ring). split; [|split; [reflexivity|split; [reflexivity|]]].
    + rewrite norm_scale. rewrite Rabs_pos_eq; [field; lra|]. apply Rmult_le_pos; [exact S|]. left. apply Rinv_0_lt_compat; lra.
    + apply vec_ext; unfold scale; cbn [vx vy vz]; field; lra.
  - intros P. unfold ScaleToLength3. change (LengthSq3 v) with (dot (part3 v) (part3 v)). cbv zeta. rsimpl.
    rewrite (proj2 (Rltb_true _ _)) by (pose proof (norm_sq (part3 v)); pose proof (norm_pos (part3 v)); nra). reflexivity.
Qed.
Print Assumptions C106_scale_to_length.
(** The tolerance predicates. *)
Theorem C106_predicates (a b : q4) (eps : R) : 0 <= eps ->
  (IsWZeroOrOne a eps = true <-> Rabs (w3 a) < eps \/ Rabs (w3 a - 1) < eps) /\
  (IsZero4 a (eps * eps) = true <-> nrm4 a <= eps) /\ (IsZero3 a (eps * eps) = true <-> norm (part3 a) <= eps) /\
  (IsNormalized4 a eps = true <-> Rabs (nrm4 a * nrm4 a - 1) <= eps) /\ (IsNormalized3 a eps = true <-> Rabs (norm (part3 a) * norm (part3 a) - 1) <= eps) /\
  (IsPerpendicular4 a b (eps * eps) = true <-> Rabs (dotp4 a b) <= eps * nrm4 a * nrm4 b) /\
  (IsPerpendicular3 a b (eps * eps) = true <-> Rabs (dot (part3 a) (part3 b)) <= eps * nrm4 a * nrm4 b) /\
  (Equals4 a b eps = true <-> forall i, Rabs (comp4 a i - comp4 b i) < eps).
Proof.
  intros P. assert (Sq : forall x y : R, 0 <= y -> (x * x <= y * y <-> Rabs x <= y)).
  { intros x y Y. unfold Rabs. destruct (Rcase_abs x); split; intros; nra. }
  split; [|split; [|split; [|split; [|split; [|split; [|split]]]]]].
  - unfold IsWZeroOrOne, EqualAbs. rewrite !Abs_R. rsimpl. rewrite orb_true_iff, !Rltb_true, Rminus_0_r. tauto.
  - unfold IsZero4. rewrite LengthSq4_R, <- nrm4_sq. rsimpl. rewrite Rleb_true. rewrite Sq by exact P. rewrite Rabs_pos_eq by apply nrm4_pos. tauto.
  - unfold IsZero3. change (LengthSq3 a) with (dot (part3 a) (part3 a)). rewrite <- norm_sq. rsimpl. rewrite Rleb_true. rewrite Sq by exact P. rewrite Rabs_pos_eq by apply norm_pos. tauto.
  - unfold IsNormalized4. rewrite LengthSq4_R, Abs_R, <- nrm4_sq. rsimpl. now rewrite Rleb_true.
  - unfold IsNormalized3. change (LengthSq3 a) with (dot (part3 a) (part3 a)). rewrite Abs_R, <- norm_sq. rsimpl. now rewrite Rleb_true.
  - unfold IsPerpendicular4. rewrite !LengthSq4_R, dot4_R, <- !nrm4_sq. cbv zeta. rsimpl. rewrite Rleb_true.
    replace (eps * eps * (nrm4 a * nrm4 a) * (nrm4 b * nrm4 b)) with ((eps * nrm4 a * nrm4 b) * (eps * nrm4 a * nrm4 b)) by ring. apply Sq.
    apply Rmult_le_pos; [apply Rmult_le_pos; [exact P|]|]; apply nrm4_pos.
  - unfold IsPerpendicular3. change (Dot3 a b) with (dot (part3 a) (part3 b)). rewrite !LengthSq4_R, <- !nrm4_sq. cbv zeta. rsimpl. rewrite Rleb_true.
    replace (eps * eps * (nrm4 a * nrm4 a) * (nrm4 b * nrm4 b)) with ((eps * nrm4 a * nrm4 b) * (eps * nrm4 a * nrm4 b)) by ring. apply Sq.
    apply Rmult_le_pos; [apply Rmult_le_pos; [exact P|]|]; apply nrm4_pos.
  - unfold Equals4. rewrite !Abs_R. rsimpl. rewrite !andb_true_iff, !Rltb_true. split; [intros [[[A B] C] D] [|[|[|i]]]; assumption|].
    intros A. repeat split; [apply (A 0%nat)|apply (A 1%nat)|apply (A 2%nat)|apply (A 3%nat)].
Qed.
Print Assumptions C106_predicates.
