(** Element reductions, componentwise functions and tolerance predicates of float3 (property C69). *)
From Coq Require Import Reals Lra Psatz Bool.
From Verif Require Import Num NumR ScalarModel ScalarProofs Vec3Model GeoTypes GeoSpec GeoLemmas F32 F32Laws.
Open Scope R_scope.

(** * Order-only facts, for every number type with a total order on its admissible values *)
Section Ord.
  Context {T : Type} `{OL : OrdLaws T}.
  Local Notation "a <== b" := (nleb a b = true) (at level 70).
  Lemma leb_refl' (x : T) : ok x -> x <== x. Proof. intros H0. destruct (leb_total x x H0 H0); easy. Qed.
  Lemma leb_false (x y : T) : ok x -> ok y -> nleb x y = false -> y <== x.
  Proof. intros Hx Hy E. destruct (leb_total x y Hx Hy); congruence. Qed.
  (** The smallest element and its index. *)
  Theorem C69_elements (v : vec T) : ok (vx v) -> ok (vy v) -> ok (vz v) ->
    (MinElement v <== vx v /\ MinElement v <== vy v /\ MinElement v <== vz v /\ (MinElement v = vx v \/ MinElement v = vy v \/ MinElement v = vz v)) /\
    (vx v <== MaxElement v /\ vy v <== MaxElement v /\ vz v <== MaxElement v /\ (MaxElement v = vx v \/ MaxElement v = vy v \/ MaxElement v = vz v)) /\
    (forall i, at3 v (MinElementIndex v) <== at3 v i /\ at3 v i <== at3 v (MaxElementIndex v)) /\
    (MinElementIndex v < 3)%nat /\ (MaxElementIndex v < 3)%nat.
  Proof.
    destruct v as [x y z]. cbn [vx vy vz]. intros Hx Hy Hz. unfold MinElement, MaxElement, MinElementIndex, MaxElementIndex, Min, Max. cbn [vx vy vz].
    pose proof (leb_refl' x Hx). pose proof (leb_refl' y Hy). pose proof (leb_refl' z Hz).
    pose proof (leb_false x y Hx Hy). pose proof (leb_false x z Hx Hz). pose proof (leb_false y z Hy Hz).
    pose proof (leb_false y x Hy Hx). pose proof (leb_false z x Hz Hx). pose proof (leb_false z y Hz Hy).
    pose proof (leb_trans x y z). pose proof (leb_trans x z y). pose proof (leb_trans y x z). pose proof (leb_trans y z x).
    pose proof (leb_trans z x y). pose proof (leb_trans z y x).
    assert (L : forall P : nat -> Prop, P 0%nat -> P 1%nat -> P 2%nat -> (forall n, P (S (S (S n)))) -> forall i, P i).
    { intros P P0 P1 P2 Pn [|[|[|n]]]; easy. }
    split; [|split; [|split; [|split]]].
    - destruct (nleb x y) eqn:A, (nleb x z) eqn:B, (nleb y z) eqn:C; auto 10.
    - destruct (nleb y x) eqn:A, (nleb z x) eqn:B, (nleb z y) eqn:C; auto 10.
    - apply L; try intros n; cbn [at3 vx vy vz]; (split;
        [destruct (nleb x y) eqn:A, (nleb x z) eqn:B, (nleb y z) eqn:C; cbn [andb at3 vx vy vz]; auto; fail
        |destruct (nleb y x) eqn:A, (nleb z x) eqn:B, (nleb z y) eqn:C; cbn [andb at3 vx vy vz]; auto; fail]).
    - destruct (_ && _)%bool; [auto|]. destruct (nleb y z); auto.
    - destruct (_ && _)%bool; [auto|]. destruct (nleb z y); auto.
  Qed.
  (** Clamping. *)
  Theorem C69_clamp (v : vec T) (lo hi : T) : ok (vx v) -> ok (vy v) -> ok (vz v) -> lo <== hi ->
    forall i, lo <== at3 (vClampS v lo hi) i /\ at3 (vClampS v lo hi) i <== hi /\ (lo <== at3 v i -> at3 v i <== hi -> at3 (vClampS v lo hi) i = at3 v i \/ (at3 (vClampS v lo hi) i <== at3 v i /\ at3 v i <== at3 (vClampS v lo hi) i)).
  Proof.
    intros Hx Hy Hz L. destruct (leb_ok lo hi L) as [Hl Hh].
    assert (G : forall x, ok x -> let c := Max (Min x hi) lo in lo <== c /\ c <== hi /\ (lo <== x -> x <== hi -> c = x \/ (c <== x /\ x <== c))).
    { intros x Hx'. cbv zeta. unfold Max, Min. pose proof (leb_refl' lo Hl). pose proof (leb_refl' hi Hh). pose proof (leb_refl' x Hx').
      destruct (nleb x hi) eqn:A.
      - destruct (nleb lo x) eqn:B; repeat split; auto. intros; congruence.
      - rewrite L. repeat split; auto. intros; congruence. }
    intros [|[|i]]; cbn [at3]; apply G; easy.
  Qed.
End Ord.
Print Assumptions C69_elements.
Print Assumptions C69_clamp.
Theorem C69_elements_f32 (v : vec f32) : ok (vx v) -> ok (vy v) -> ok (vz v) ->
  forall i, nleb (at3 v (MinElementIndex v)) (at3 v i) = true /\ nleb (at3 v i) (at3 v (MaxElementIndex v)) = true.
Proof. intros A B C. apply (C69_elements v A B C). Qed.
Print Assumptions C69_elements_f32.
Example C69_witness : MinElementIndex (V3 2 1 (3 : R)) = 1%nat /\ MaxElementIndex (V3 2 1 (3 : R)) = 2%nat /\ MaxElement (V3 2 1 (3:R)) = 3.
Proof.
  unfold MinElementIndex, MaxElementIndex, MaxElement, Max. cbn [vx vy vz]. rsimpl.
  repeat (rcase; cbn [andb]; try (exfalso; lra)). easy.
Qed.

(** * Arithmetic facts over R *)
Theorem C69_reductions (v : pt) :
  SumOfElements v = vx v + vy v + vz v /\ ProductOfElements v = vx v * vy v * vz v /\ 3 * AverageOfElements v = SumOfElements v /\
  vAbs v = V3 (Rabs (vx v)) (Rabs (vy v)) (Rabs (vz v)).
Proof.
  unfold SumOfElements, ProductOfElements, AverageOfElements, vAbs. rewrite !Abs_R. rsimpl. repeat split. field.
Qed.
Print Assumptions C69_reductions.
Theorem C69_lerp (a b : pt) (t : R) : vLerp a b 0 = a /\ vLerp a b 1 = b /\ minus (vLerp a b t) a = scale t (minus b a) /\
  (0 <= t <= 1 -> dist a (vLerp a b t) + dist (vLerp a b t) b = dist a b).
Proof.
  assert (E : forall s, vLerp a b s = plus a (scale s (minus b a))).
  { intros s. unfold vLerp, vadd, smulv. apply vec_ext; gunf; rsimpl; ring. }
  split; [rewrite E; apply vec_ext; gunf; ring|]. split; [rewrite E; apply vec_ext; gunf; ring|]. split; [rewrite E; apply vec_ext; gunf; ring|].
  intros [T0 T1]. unfold dist. rewrite E.
  replace (minus a (plus a (scale t (minus b a)))) with (scale t (minus a b)) by (apply vec_ext; gunf; ring).
  replace (minus (plus a (scale t (minus b a))) b) with (scale (1 - t) (minus a b)) by (apply vec_ext; gunf; ring).
  rewrite !norm_scale, !Rabs_pos_eq by lra. ring.
Qed.
Print Assumptions C69_lerp.
(** IsPerpendicular bounds the squared cosine of the angle; with tolerance 0 it is orthogonality. *)
Theorem C69_perpendicular (a b : pt) (e : R) :
  (IsPerpendicular a b e = true <-> dot a b * dot a b <= e * (norm a * norm b) * (norm a * norm b)) /\
  (IsPerpendicular a b 0 = true <-> orth a b).
Proof.
  assert (G : forall e, IsPerpendicular a b e = true <-> dot a b * dot a b <= e * dot a a * dot b b) by (intros; unfold IsPerpendicular; apply Rleb_true).
  rewrite !G. pose proof (norm_sq a). pose proof (norm_sq b). split.
  - replace (e * (norm a * norm b) * (norm a * norm b)) with (e * (norm a * norm a) * (norm b * norm b)) by ring. rewrite H, H0. easy.
  - unfold orth. split; intros E; nra.
Qed.
Print Assumptions C69_perpendicular.
Theorem C69_normalized (v : pt) (e : R) :
  (IsNormalized v e = true <-> Rabs (norm v * norm v - 1) <= e) /\ (IsNormalized v 0 = true <-> norm v = 1) /\
  (IsZero_eps v e = true <-> norm v * norm v <= e).
Proof.
  assert (G : forall e, IsNormalized v e = true <-> Rabs (norm v * norm v - 1) <= e).
  { intros k. unfold IsNormalized. rewrite Abs_R, norm_sq. rsimpl. apply Rleb_true. }
  rewrite !G. split; [easy|]. split.
  - pose proof (norm_pos v). split; intros E.
    + assert (norm v * norm v - 1 = 0) by (destruct (Req_dec (norm v * norm v - 1) 0) as [|N]; [easy|apply Rabs_pos_lt in N; lra]). nra.
    + rewrite E. replace (1 * 1 - 1) with 0 by ring. rewrite Rabs_R0. lra.
  - rewrite norm_sq. unfold IsZero_eps. apply Rleb_true.
Qed.
Print Assumptions C69_normalized.
Theorem C69_orthonormal_predicates (a b c : pt) (e : R) : 
  (AreOrthogonal3 a b c 0 = true <-> orth a b /\ orth a c /\ orth b c) /\
  (AreOrthonormal3 a b c 0 = true <-> orth a b /\ orth a c /\ orth b c /\ norm a = 1 /\ norm b = 1 /\ norm c = 1) /\
  (AreOrthonormal3 a b c e = true <-> AreOrthogonal3 a b c e = true /\ IsNormalized a (e * e) = true /\ IsNormalized b (e * e) = true /\ IsNormalized c (e * e) = true).
Proof.
  unfold AreOrthogonal3, AreOrthonormal3. rewrite !andb_true_iff. rsimpl. rewrite !Rmult_0_l.
  destruct (C69_perpendicular a b 0) as [_ ->]. destruct (C69_perpendicular a c 0) as [_ ->]. destruct (C69_perpendicular b c 0) as [_ ->].
  destruct (C69_normalized a 0) as (_ & -> & _). destruct (C69_normalized b 0) as (_ & -> & _). destruct (C69_normalized c 0) as (_ & -> & _). tauto.
Qed.
Print Assumptions C69_orthonormal_predicates.
Theorem C69_equals (a b : pt) (e : R) : 
  (vEquals a b e = true <-> forall i, Rabs (at3 a i - at3 b i) < e) /\ ((forall k, 0 < k -> vEquals a b k = true) <-> a = b).
Proof.
  assert (G : forall e, vEquals a b e = true <-> forall i, Rabs (at3 a i - at3 b i) < e).
  { intros k. unfold vEquals. rewrite !andb_true_iff, !Abs_R. rsimpl. rewrite !Rltb_true. split.
    - intros ((A & B) & C) [|[|i]]; easy.
    - intros A. repeat split; [apply (A 0%nat)|apply (A 1%nat)|apply (A 2%nat)]. }
  split; [apply G|]. split.
  - intros E. assert (Z : forall i, at3 a i = at3 b i).
    { intros i. destruct (Req_dec (at3 a i) (at3 b i)) as [|N]; [easy|]. exfalso. assert (P : 0 < Rabs (at3 a i - at3 b i)) by (apply Rabs_pos_lt; lra).
      specialize (E _ P). apply G with (i := i) in E. lra. }
    apply vec_ext; [apply (Z 0%nat)|apply (Z 1%nat)|apply (Z 2%nat)].
  - intros -> k K. apply G. intros i. unfold Rminus. rewrite Rplus_opp_r, Rabs_R0. easy.
Qed.
Print Assumptions C69_equals.
(** Componentwise arithmetic; division multiplies by the reciprocal, which over R is division. *)
Theorem C69_componentwise (a b : pt) (s : R) i :
  at3 (vmul a b) i = at3 a i * at3 b i /\ at3 (vdiv a b) i = at3 a i / at3 b i /\ (s <> 0 -> scale s (vdivs a s) = a) /\
  at3 (vClamp01 a) i = Rmax (Rmin (at3 a i) 1) 0 /\ at3 (vMin a b) i = Rmin (at3 a i) (at3 b i) /\ at3 (vMax a b) i = Rmax (at3 a i) (at3 b i).
Proof.
  assert (Mn : forall x y : R, Min x y = Rmin x y) by (intros; unfold Min, Rmin; rsimpl; destruct (Rleb_spec x y), (Rle_dec x y); lra).
  assert (Mx : forall x y : R, Max x y = Rmax x y) by (intros; unfold Max, Rmax; rsimpl; destruct (Rleb_spec y x), (Rle_dec x y); lra).
  split; [destruct i as [|[|i]]; reflexivity|]. split; [destruct i as [|[|i]]; reflexivity|].
  split; [intros; unfold vdivs; apply vec_ext; gunf; rsimpl; field; easy|].
  unfold vClamp01, vClampS, vClamp, vMax, vMin, FromScalar. split; [|split]; destruct i as [|[|i]]; cbn [at3 vx vy vz]; rewrite ?Mn, ?Mx; reflexivity.
Qed.
Print Assumptions C69_componentwise.
Example C69_predicates_witness : AreOrthonormal3 (V3 1 0 0) (V3 0 (3/5) (4/5)) (V3 0 (- (4/5)) (3/5)) 0 = true /\
  IsPerpendicular (V3 1 0 0) (V3 (1/100) 1 0) (1/1000) = true /\ IsPerpendicular (V3 1 0 0) (V3 1 1 0) (1/1000) = false.
Proof.
  split; [|split].
  - destruct (C69_orthonormal_predicates (V3 1 0 0) (V3 0 (3/5) (4/5)) (V3 0 (- (4/5)) (3/5)) 0) as (_ & W & _). apply W. repeat split; unfold orth, norm; gunf;
      match goal with |- sqrt ?x = 1 => replace x with 1 by field; apply sqrt_1 | _ => field end.
  - apply Rleb_true. unfold Dot, LengthSq. cbn. lra.
  - destruct (IsPerpendicular _ _ _) eqn:E; [|easy]. apply Rleb_true in E. unfold Dot, LengthSq in E. cbn in E. lra.
Qed.
