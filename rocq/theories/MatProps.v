(** Theorems about the matrix classes (properties C30-C34 and C65-C68). *)
From Coq Require Import Reals Lra Lia Psatz List Arith ZArith Bool.
From Verif Require Import Num NumR ScalarModel ScalarProofs Vec3Model GeoTypes GeoSpec GeoLemmas GMatModel GMatSpec GMatProofs MatModel MatSpec MatProofs MatProofs2.
Import ListNotations.
Open Scope R_scope.

(** * C30: inverses *)
(** Gauss-Jordan elimination, for every size: success means a two-sided inverse, and every invertible matrix is inverted
    once the tolerance is small enough. *)
Theorem C30_InverseMatrix (n : nat) (A B : gmat R) eps : 0 < eps -> InverseMatrix n A eps = (true, B) -> inverse_of n A B.
Proof. apply InverseMatrix_correct. Qed.
Print Assumptions C30_InverseMatrix.
Theorem C30_InverseMatrix_complete (n : nat) (A : gmat R) : invertible n A ->
  exists e0, 0 < e0 /\ forall eps, 0 < eps <= e0 -> fst (InverseMatrix n A eps) = true.
Proof. apply InverseMatrix_complete. Qed.
Print Assumptions C30_InverseMatrix_complete.

(** float3x3 and float4x4: the result undoes the transform from both sides. *)
Theorem C30_Inverse (m m' : mat3 R) (A A' : mat4 R) (p p' : mat34 R) eps : 0 < eps ->
  (Inverse3 m eps = (true, m') -> inverses m m') /\ (Inverse4 A eps = (true, A') -> inverses4 A A') /\
  (Inverse34 p eps = (true, p') -> inverses34 p p') /\ (Inverse3 m eps = (false, m') -> m' = m).
Proof.
  intros He. split; [now apply Inverse3_correct|]. split; [now apply Inverse4_correct|]. split; [now apply Inverse34_correct|]. apply Inverse3_failure.
Qed.
Print Assumptions C30_Inverse.
Theorem C30_Inverse_complete (m n : mat3 R) (A B : mat4 R) (p q : mat34 R) :
  (inverses m n -> exists e0, 0 < e0 /\ forall eps, 0 < eps <= e0 -> fst (Inverse3 m eps) = true) /\
  (inverses4 A B -> exists e0, 0 < e0 /\ forall eps, 0 < eps <= e0 -> fst (Inverse4 A eps) = true) /\
  (inverses34 p q -> exists e0, 0 < e0 /\ forall eps, 0 < eps <= e0 -> fst (Inverse34 p eps) = true).
Proof.
  split; [apply Inverse3_complete|]. split; [apply Inverse4_complete|].
  intros I. assert (I4 : inverses4 (of34 p) (of34 q)).
  { assert (J : forall p q : mat34 R, (forall v, apply34 p (apply34 q v) = v) -> forall v, apply4 (of34 p) (apply4 (of34 q) v) = v).
    { clear. intros p q I v. destruct (mixed_products identity3 p identity4) as (_ & _ & _ & _ & _ & _ & M).
      rewrite <- mulm4_apply, <- M. assert (E : mulm34 p q = identity34).
      { apply apply34_inj. intros u. rewrite mulm34_apply, I. apply vec_ext; mdes; munf; ring. }
      rewrite E. apply v4_ext; mdes; munf; ring. }
    intros v. split; apply J; intros u; apply I. }
  destruct (Inverse4_complete _ _ I4) as (e0 & P & C). exists e0. split; [easy|]. intros eps He. specialize (C eps He).
  unfold Inverse34. destruct (Inverse4 (of34 p) eps). exact C.
Qed.
Print Assumptions C30_Inverse_complete.
Theorem C30_InverseFast (m m' : mat3 R) eps : 0 < eps ->
  (InverseFast m eps = (true, m') -> inverses m m') /\ (fst (InverseFast m eps) = true <-> eps <= Rabs (Determinant m)) /\
  (fst (InverseFast m eps) = false -> snd (InverseFast m eps) = m).
Proof.
  intros He. split; [now apply InverseFast_correct|]. split; [apply InverseFast_exact|].
  unfold InverseFast. destruct (EqualAbs _ _ _); [easy|intros Q; discriminate Q].
Qed.
Print Assumptions C30_InverseFast.
Lemma EqualAbs_false (a b e : R) : EqualAbs a b e = false <-> e <= Rabs (a - b).
Proof.
  destruct (EqualAbs a b e) eqn:C.
  - apply EqualAbs_R in C. split; [discriminate|lra].
  - split; [|easy]. intros _. destruct (Rle_dec e (Rabs (a - b))) as [|N]; [easy|]. exfalso.
    assert (Rabs (a - b) < e) as L by lra. apply EqualAbs_R in L. congruence.
Qed.
Theorem C30_InverseSymmetric (m m' : mat3 R) : symmetric3 m ->
  (InverseSymmetric m = (true, m') -> inverses m m') /\ (fst (InverseSymmetric m) = true <-> 1 / 1000 <= Rabs (Determinant m)).
Proof.
  intros S. split; [now apply InverseSymmetric_correct|]. pose proof (det_symmetric m S) as DS. unfold InverseSymmetric.
  match goal with |- context [EqualAbs ?d n0 ?e] => assert (E : d = Determinant m) end.
  { rewrite <- DS. unfold DeterminantSymmetric. clear. mdes. munf. ring. }
  rewrite E. destruct (EqualAbs (Determinant m) n0 (nlit 1 1000)) eqn:C; cbn [fst].
  - apply EqualAbs_small in C. split; [discriminate|lra].
  - apply EqualAbs_false in C. change (@n0 R Num_R) with 0 in C. rewrite Rminus_0_r in C. rsimpl. split; [intros _; exact C|easy].
Qed.
Print Assumptions C30_InverseSymmetric.
Theorem C30_InverseOrthogonal (m m' : mat3 R) : col_orthogonal m ->
  (InverseColOrthogonal m = (true, m') -> inverses m m') /\
  (fst (InverseColOrthogonal m) = true <->
     1 / 10000 <= norm (apply m ex) /\ 1 / 10000 <= norm (apply m ey) /\ 1 / 10000 <= norm (apply m ez)) /\
  (uniform_scale m -> InverseOrthogonalUniformScale m = (true, m') -> inverses m m') /\
  (fst (InverseOrthogonalUniformScale m) = true <-> 1 / 10000 <= norm (apply m ex)).
Proof.
  intros O. assert (L : forall v : pt, nltb (LengthSq v) (nlit 1 100000000) = false <-> 1 / 10000 <= norm v).
  { intros v. rewrite LengthSq_R, <- norm_sq. pose proof (norm_pos v). cbn [nltb Num_R]. rsimpl.
    destruct (Rltb_spec (norm v * norm v) (1 / 100000000)); split; try easy; nra. }
  split; [now apply InverseColOrthogonal_correct|]. split; [|split].
  - unfold InverseColOrthogonal. destruct (cols_apply m) as (-> & -> & ->). rewrite <- !L.
    destruct (nltb _ _), (nltb _ _), (nltb _ _); cbn; intuition discriminate.
  - intros U. now apply InverseOrthogonalUniformScale_correct.
  - unfold InverseOrthogonalUniformScale. destruct (cols_apply m) as (-> & _ & _). rewrite <- L.
    destruct (nltb _ _); cbn; intuition discriminate.
Qed.
Print Assumptions C30_InverseOrthogonal.
Theorem C30_InverseOrthonormal (m : mat3 R) : orthonormal_cols m -> inverses m (InverseOrthonormal m).
Proof. apply InverseOrthonormal_correct. Qed.
Print Assumptions C30_InverseOrthonormal.
(** The inverse transpose carries normals: it preserves inner products against vectors moved by the matrix. *)
Theorem C30_InverseTranspose (m m' : mat3 R) :
  (InverseTranspose m = (true, m') -> forall a b, dot (apply m' a) (apply m b) = dot a b) /\
  (fst (Inverse3 (Transposed3 m) (nlit 1 1000000)) = true -> forall a b, dot (apply (InverseTransposed m) a) (apply m b) = dot a b).
Proof. split; [apply InverseTranspose_correct|apply InverseTransposed_correct]. Qed.
Print Assumptions C30_InverseTranspose.
(** Finding: IsInvertible tests the determinant, Inverse the pivots, so the two disagree at the same tolerance. *)
Definition diag3 (k : R) : mat3 R := M3 (V3 k 0 0) (V3 0 k 0) (V3 0 0 k).
Lemma diag3_det k : Determinant (diag3 k) = k * k * k. Proof. unfold Determinant, diag3. cbn. ring. Qed.
Lemma abs_pos x : 0 <= x -> Abs (x : R) = x. Proof. intros. rewrite Abs_R. now apply Rabs_pos_eq. Qed.
Theorem C30_InverseFast_small_refuted : exists (m m' : mat3 R),
  inverses m m' /\ fst (InverseFast m (1 / 1000)) = false /\ IsInvertible3 m (1 / 1000) = false /\ fst (InverseColOrthogonal m) = true.
Proof.
  exists (diag3 (1/100)), (diag3 100). split; [|split; [|split]].
  - intros v. split; apply vec_ext; unfold diag3; mdes; munf; field.
  - unfold InverseFast. rewrite diag3_det. destruct (EqualAbs _ _ _) eqn:C; [easy|]. apply EqualAbs_false in C. exfalso.
    change (@n0 R Num_R) with 0 in C. rewrite Rminus_0_r, Rabs_pos_eq in C; lra.
  - unfold IsInvertible3. rewrite diag3_det. destruct (EqualAbs _ _ _) eqn:C; [easy|]. apply EqualAbs_false in C. exfalso.
    change (@n0 R Num_R) with 0 in C. rewrite Rminus_0_r, Rabs_pos_eq in C; lra.
  - unfold InverseColOrthogonal, diag3, col0, col1, col2, LengthSq. cbn [row0 row1 row2 vx vy vz]. rsimpl.
    repeat match goal with |- context [Rltb ?a ?b] => destruct (Rltb_spec a b) as [Q|_]; [exfalso; lra|] end. reflexivity.
Qed.
Print Assumptions C30_InverseFast_small_refuted.

(** A general invertible matrix, and a scaled rotation, meet the hypotheses. *)
Definition wm : mat3 R := M3 (V3 2 1 0) (V3 1 3 1) (V3 0 1 4).
Example C30_witness : exists m', InverseFast wm (1/1000) = (true, m') /\ inverses wm m' /\ symmetric3 wm /\ fst (InverseSymmetric wm) = true /\
  exists e, 0 < e /\ fst (Inverse3 wm e) = true.
Proof.
  assert (D : Determinant wm = 18) by (unfold Determinant, wm; cbn; ring).
  assert (S : symmetric3 wm) by (intros a b; unfold wm; mdes; munf; ring).
  assert (F : fst (InverseFast wm (1/1000)) = true) by (apply InverseFast_exact; rewrite D, Rabs_pos_eq; lra).
  exists (snd (InverseFast wm (1/1000))).
  assert (E : InverseFast wm (1/1000) = (true, snd (InverseFast wm (1/1000)))) by (rewrite <- F; apply surjective_pairing).
  assert (I : inverses wm (snd (InverseFast wm (1/1000)))) by (apply InverseFast_correct with (1/1000); [lra|exact E]).
  split; [exact E|]. split; [exact I|]. split; [exact S|]. split.
  - apply (C30_InverseSymmetric wm wm S). rewrite D, Rabs_pos_eq; lra.
  - destruct (Inverse3_complete _ _ I) as (e & P & C). exists e. split; [easy|]. apply C. lra.
Qed.
Definition rot345 (k : R) : mat3 R := M3 (V3 (k * (3/5)) (- (k * (4/5))) 0) (V3 (k * (4/5)) (k * (3/5)) 0) (V3 0 0 k).
Example C30_orthogonal_witness : col_orthogonal (rot345 2) /\ uniform_scale (rot345 2) /\ fst (InverseColOrthogonal (rot345 2)) = true /\
  fst (InverseOrthogonalUniformScale (rot345 2)) = true /\ orthonormal_cols (rot345 1).
Proof.
  assert (N : forall v : pt, dot v v = 4 -> norm v = 2).
  { intros v E. unfold norm. rewrite E. replace 4 with (2*2) by ring. apply sqrt_square. lra. }
  assert (N1 : norm (apply (rot345 2) ex) = 2) by (apply N; unfold rot345; munf; field).
  assert (N2 : norm (apply (rot345 2) ey) = 2) by (apply N; unfold rot345; munf; field).
  assert (N3 : norm (apply (rot345 2) ez) = 2) by (apply N; unfold rot345; munf; field).
  assert (O : col_orthogonal (rot345 2)) by (unfold col_orthogonal, orth, rot345; munf; repeat split; ring).
  pose proof (C30_InverseOrthogonal (rot345 2) (rot345 2) O) as (_ & C1 & _ & C2).
  split; [exact O|]. split; [split; congruence|]. split; [apply C1; rewrite N1, N2, N3; lra|]. split; [apply C2; rewrite N1; lra|].
  intros u v. unfold rot345. mdes. munf. field.
Qed.

(** * C31: SolveAxb *)
Theorem C31_SolveAxb (m : mat3 R) b x : SolveAxb m b = Some x -> forall y, apply m y = b <-> y = x.
Proof. apply SolveAxb_correct. Qed.
Print Assumptions C31_SolveAxb.
(** It gives up only when the matrix shrinks some vector of length at least one to components below 1e-3. *)
Theorem C31_SolveAxb_complete (m : mat3 R) b : SolveAxb m b = None ->
  exists y, 1 <= norm y /\ Rabs (vx (apply m y)) < 1 / 1000 /\ Rabs (vy (apply m y)) < 1 / 1000 /\ Rabs (vz (apply m y)) < 1 / 1000.
Proof.
  intros S. destruct (SolveAxb_none m b S) as (y & L & A). exists y. split; [|exact A].
  unfold norm. rewrite <- sqrt_1. apply sqrt_le_1_alt. exact L.
Qed.
Print Assumptions C31_SolveAxb_complete.
Example C31_witness : exists x, SolveAxb (M3 (V3 0 2 1) (V3 4 0 0) (V3 0 1 3)) (V3 1 2 3) = Some x.
Proof.
  destruct (SolveAxb _ _) as [x|] eqn:E; [now exists x|]. exfalso. apply C31_SolveAxb_complete in E.
  destruct E as (y & L & A). destruct y as [y0 y1 y2]. unfold norm in L. assert (N : 1 <= sqrt (dot (V3 y0 y1 y2) (V3 y0 y1 y2))) by exact L.
  assert (M : 1 <= dot (V3 y0 y1 y2) (V3 y0 y1 y2)).
  { pose proof (sqrt_sqrt (dot (V3 y0 y1 y2) (V3 y0 y1 y2)) (dot_pos _)). nra. }
  munf. destruct A as (A1 & A2 & A3). apply Rabs_def2 in A1, A2, A3. nra.
Qed.

(** * C32: the algebra *)
(** Transforming agrees with the matrix-vector product, and products with composition, for all the size combinations. *)
Theorem C32_product_composition (a b : mat3 R) (p q : mat34 R) (A B : mat4 R) (v : pt) (x : v4 R) :
  mulv a v = apply a v /\ mulv (mulm a b) v = mulv a (mulv b v) /\ TransformLeft a v = applyT a v /\
  mulpos34 p v = apply34 p v /\ mulpos34 (mulm34 p q) v = mulpos34 p (mulpos34 q v) /\
  muldir34 (mulm34 p q) v = muldir34 p (muldir34 q v) /\
  (forall u, muldir34 p (minus u v) = minus (mulpos34 p u) (mulpos34 p v)) /\
  Transform4 A x = apply4 A x /\ Transform4 (mulm4 A B) x = Transform4 A (Transform4 B x) /\
  (forall c, TransformLeft4 x A = c <-> forall y, dotp4 c y = dotp4 x (apply4 A y)).
Proof.
  split; [reflexivity|]. split; [apply mulm_apply|]. split; [apply vec_ext; mdes; munf; ring|]. split; [reflexivity|]. split; [apply mulm34_apply|].
  split; [apply mulm_apply|]. split; [intros u; apply vec_ext; mdes; munf; ring|]. split; [reflexivity|]. split; [apply mulm4_apply|].
  intros c. split.
  - intros <- y. mdes. munf. ring.
  - intros E. assert (E0 := E (X4 1 0 0 0)). assert (E1 := E (X4 0 1 0 0)). assert (E2 := E (X4 0 0 1 0)). assert (E3 := E (X4 0 0 0 1)). clear E.
    apply v4_ext; mdes; munf; lra.
Qed.
Print Assumptions C32_product_composition.
(** Mixed products agree with the products of the matrices extended by (0,0,0,1), and the extension acts as the affine map. *)
Theorem C32_mixed_products (a : mat3 R) (p : mat34 R) (A : mat4 R) (v : pt) :
  of34 (mulm34_3 p a) = mulm4 (of34 p) (of3 a) /\ of34 (mulm3_34 a p) = mulm4 (of3 a) (of34 p) /\
  mulm4_34 A p = mulm4 A (of34 p) /\ mulm4_3 A a = mulm4 A (of3 a) /\ mulm3_4 a A = mulm4 (of3 a) A /\ mulm34_4 p A = mulm4 (of34 p) A /\
  (forall q, of34 (mulm34 p q) = mulm4 (of34 p) (of34 q)) /\
  apply4 (of34 p) (hpoint v) = hpoint (apply34 p v) /\ apply4 (of34 p) (hdir v) = hdir (apply (lin34 p) v) /\
  apply4 (of3 a) (hpoint v) = hpoint (apply a v) /\ Float3x4Part (of34 p) = p /\
  (TransformPos4 A v = V3 (w0 (apply4 A (hpoint v))) (w1 (apply4 A (hpoint v))) (w2 (apply4 A (hpoint v)))) /\
  (TransformDir4 A v = V3 (w0 (apply4 A (hdir v))) (w1 (apply4 A (hdir v))) (w2 (apply4 A (hdir v)))).
Proof.
  destruct (mixed_products a p A) as (H1 & H2 & H3 & H4 & H5 & H6 & H7). do 7 (split; [assumption|]).
  split; [apply of34_apply|]. split; [apply of34_dir|]. split; [apply v4_ext; mdes; munf; ring|].
  split; [destruct p as [[[? ? ?] [? ? ?] [? ? ?]] [? ? ?]]; reflexivity|]. split; apply vec_ext; mdes; munf; ring.
Qed.
Print Assumptions C32_mixed_products.
Theorem C32_determinant (a b : mat3 R) (u v w : pt) :
  volume (apply a u) (apply a v) (apply a w) = Determinant a * volume u v w /\
  Determinant a = volume (apply a ex) (apply a ey) (apply a ez) /\
  Determinant (mulm a b) = Determinant a * Determinant b /\ Determinant (Transposed3 a) = Determinant a /\ Determinant identity3 = 1 /\
  (forall p : mat34 R, Determinant34 p = Determinant (lin34 p)) /\ (forall A : mat4 R, Determinant3 A = Determinant (lin34 (Float3x4Part A))) /\
  (symmetric3 a -> DeterminantSymmetric a = Determinant a) /\ (inverses a b -> Determinant a * Determinant b = 1) /\
  (HasNegativeScale a = true <-> volume (apply a ex) (apply a ey) (apply a ez) < 0).
Proof.
  split; [apply det_volume|]. split; [apply det_columns|]. split; [apply det_mul|]. split; [apply det_transposed|].
  split; [unfold Determinant, identity3, mk3; cbn; ring|]. split; [intros; apply det_sum|]. split; [intros; apply det_sum|].
  split; [apply det_symmetric|]. split; [apply inverses_det|].
  unfold HasNegativeScale. rewrite <- det_columns. apply Rltb_true.
Qed.
Print Assumptions C32_determinant.
Theorem C32_determinant4 (A B : mat4 R) (p : mat34 R) :
  Determinant4 (mulm4 A B) = Determinant4 A * Determinant4 B /\ Determinant4 (Transposed4 A) = Determinant4 A /\
  Determinant4 identity4 = 1 /\ Determinant4 (of34 p) = Determinant (lin34 p) /\ (inverses4 A B -> Determinant4 A * Determinant4 B = 1).
Proof.
  assert (I1 : Determinant4 (identity4 (T := R)) = 1) by (unfold identity4; det4; ring).
  split; [apply det4_mul|]. split; [apply det4_transposed|]. split; [exact I1|]. split; [apply det4_affine|].
  intros I. apply inverses4_mulm in I. destruct I as [I _]. now rewrite <- det4_mul, I.
Qed.
Print Assumptions C32_determinant4.
(** The transpose moves across the inner product; sums, multiples and negation act pointwise. *)
Theorem C32_linear (a b : mat3 R) (A : mat4 R) k (u v : pt) (x y : v4 R) :
  dot (apply (Transposed3 a) u) v = dot u (apply a v) /\ dotp4 (apply4 (Transposed4 A) x) y = dotp4 x (apply4 A y) /\
  apply (madd a b) v = plus (apply a v) (apply b v) /\ apply (msub a b) v = minus (apply a v) (apply b v) /\
  apply (mneg a) v = scale (-1) (apply a v) /\ apply (mscale a k) v = scale k (apply a v) /\
  (k <> 0 -> scale k (apply (mdivs a k) v) = apply a v) /\ apply identity3 v = v /\ apply34 identity34 v = v /\ apply4 identity4 x = x /\
  Trace3 a = dot ex (apply a ex) + dot ey (apply a ey) + dot ez (apply a ez).
Proof.
  split; [apply transposed_dot|]. split; [mdes; munf; ring|]. do 4 (split; [apply vec_ext; mdes; munf; ring|]).
  split; [intros; apply vec_ext; mdes; munf; field; easy|]. split; [apply apply_id|]. split; [apply vec_ext; mdes; munf; ring|].
  split; [apply v4_ext; mdes; munf; ring|]. unfold Trace3. mdes. munf. ring.
Qed.
Print Assumptions C32_linear.
(** Shears and the tolerance predicates. *)
Theorem C32_shear (s t : R) (v : pt) :
  apply (ShearX s t) v = plus v (scale (s * vy v + t * vz v) ex) /\ apply (ShearY s t) v = plus v (scale (s * vx v + t * vz v) ey) /\
  apply (ShearZ s t) v = plus v (scale (s * vx v + t * vy v) ez).
Proof. repeat split; apply vec_ext; unfold ShearX, ShearY, ShearZ; mdes; munf; ring. Qed.
Print Assumptions C32_shear.
Theorem C32_predicates (m : mat3 R) : 
  ((forall e, 0 < e -> IsIdentity3 m e = true) <-> forall v, apply m v = v) /\
  ((forall e, 0 < e -> IsSymmetric3 m e = true) <-> symmetric3 m) /\
  ((forall e, 0 < e -> IsInvertible3 m e = false) <-> Determinant m = 0).
Proof.
  assert (Z : forall a b : R, (forall e, 0 < e -> EqualAbs a b e = true) <-> a = b).
  { intros a b. split.
    - intros E. destruct (Req_dec a b) as [|N]; [easy|]. exfalso. assert (0 < Rabs (a - b)) by (apply Rabs_pos_lt; lra).
      specialize (E (Rabs (a - b)) H). apply EqualAbs_R in E. lra.
    - intros -> e He. apply EqualAbs_R. unfold Rminus. rewrite Rplus_opp_r, Rabs_R0. easy. }
  assert (I : (forall e, 0 < e -> IsIdentity3 m e = true) <-> m = identity3).
  { split.
    - intros E. destruct m as [[a b c] [d e f] [g h i]]. unfold identity3, mk3.
      assert (W : (a = 1 /\ b = 0 /\ c = 0) /\ (d = 0 /\ e = 1 /\ f = 0) /\ (g = 0 /\ h = 0 /\ i = 1)).
      { rewrite <- !Z. repeat split; intros k Hk; specialize (E k Hk); unfold IsIdentity3, vEq1 in E; cbn [row0 row1 row2 vx vy vz] in E;
          rewrite !andb_true_iff in E; tauto. }
      destruct W as ((-> & -> & ->) & (-> & -> & ->) & (-> & -> & ->)). reflexivity.
    - intros -> e He. unfold IsIdentity3, vEq1, identity3, mk3. cbn [row0 row1 row2 vx vy vz]. rewrite !(proj2 (Z _ _)) by easy. reflexivity. }
  split; [|split].
  - rewrite I. split; [intros ->; apply apply_id|]. intros E. apply apply_inj. intros v. rewrite E. symmetry. apply apply_id.
  - split.
    + intros E. assert (W : vy (row0 m) = vx (row1 m) /\ vz (row0 m) = vx (row2 m) /\ vz (row1 m) = vy (row2 m)).
      { rewrite <- !Z. repeat split; intros k Hk; specialize (E k Hk); unfold IsSymmetric3 in E; rewrite !andb_true_iff in E; tauto. }
      destruct m as [[a b c] [d e f] [g h i]]. cbn in W. destruct W as (-> & -> & ->). intros u v. mdes. munf. ring.
    + intros S e He. assert (S1 := S ex ey). assert (S2 := S ex ez). assert (S3 := S ey ez). unfold IsSymmetric3.
      destruct m as [[a b c] [d k f] [g h i]]. clear S. munf. rewrite !(proj2 (Z _ _)) by (try easy; lra). reflexivity.
  - rewrite <- Z. unfold IsInvertible3. split; intros E e He; specialize (E e He); [now apply negb_false_iff in E|apply negb_false_iff; exact E].
Qed.
Print Assumptions C32_predicates.
Example C32_witness : Determinant wm = 18 /\ apply (mulm wm wm) (V3 1 0 0) = V3 5 5 1 /\ Determinant4 (of3 wm) = 18 /\ HasNegativeScale (mneg wm) = true.
Proof.
  split; [unfold Determinant, wm; cbn; ring|]. split; [apply vec_ext; unfold wm; munf; ring|].
  split; [unfold of3; rewrite det4_affine; cbn [lin34]; unfold Determinant, wm; cbn; ring|].
  apply Rltb_true. unfold Determinant, mneg, vneg, wm. cbn. lra.
Qed.

(** * C33: triangular factorisations *)
Theorem C33_LU (n : nat) (A L U : gmat R) : LUDecomposeMatrix n A = (true, (L, U)) ->
  meq n (mprod n L U) A /\ unit_lower n L /\ upper_triangular n U.
Proof. apply LUDecomposeMatrix_correct. Qed.
Print Assumptions C33_LU.
Theorem C33_LUDecompose (m l u : mat4 R) : LUDecompose m = (true, (l, u)) ->
  mulm4 l u = m /\ unit_lower 4 (g4 l) /\ upper_triangular 4 (g4 u).
Proof. apply LUDecompose_correct. Qed.
Print Assumptions C33_LUDecompose.
(** Finding: the guard [if (lower[i][i])] is inverted, so no matrix of size 2 or more is ever decomposed. *)
Theorem C33_Cholesky_refuted (n : nat) (A : gmat R) : (2 <= n)%nat -> fst (CholeskyDecomposeMatrix n A) = false.
Proof. apply Cholesky_fails. Qed.
Print Assumptions C33_Cholesky_refuted.
Theorem C33_CholeskyDecompose_refuted : (forall A : mat4 R, fst (CholeskyDecompose A) = false) /\
  (exists L, inverses4 L L /\ mulm4 L (Transposed4 L) = (identity4 : mat4 R)).
Proof.
  split.
  - intros A. unfold CholeskyDecompose. pose proof (Cholesky_fails 4 (g4 A)) as C. destruct (CholeskyDecomposeMatrix 4 (g4 A)). apply C. lia.
  - exists identity4. split; [intros v; split; apply v4_ext; mdes; munf; ring|]. munf. mext; ring.
Qed.
Print Assumptions C33_CholeskyDecompose_refuted.

(** * C34: affine inverses *)
Theorem C34_affine_inverses (p p' : mat34 R) :
  (orthonormal_cols (lin34 p) -> inverses34 p (InverseOrthonormal34 p)) /\
  (col_orthogonal (lin34 p) -> InverseColOrthogonal34 p = (true, p') -> inverses34 p p') /\
  (col_orthogonal (lin34 p) -> uniform_scale (lin34 p) -> InverseOrthogonalUniformScale34 p = (true, p') -> inverses34 p p') /\
  fst (InverseColOrthogonal34 p) = fst (InverseColOrthogonal (lin34 p)) /\
  (fst (InverseOrthogonalUniformScale34 p) = false <-> row0 (lin34 p) = V3 0 0 0).
Proof.
  split; [apply InverseOrthonormal34_correct|]. split; [apply InverseColOrthogonal34_correct|]. split; [apply InverseOrthogonalUniformScale34_correct|].
  split; [unfold InverseColOrthogonal34, InverseColOrthogonal; destruct (_ || _)%bool; reflexivity|].
  unfold InverseOrthogonalUniformScale34. cbv zeta. destruct p as [[[a b c] r1 r2] t]. unfold Transposed3, col0, col1, col2, LengthSq. cbn [lin34 row0 row1 row2 vx vy vz]. rsimpl.
  destruct (Reqb_spec (a * a + b * b + c * c) 0) as [E|E]; cbn [fst].
  - split; intros _; [f_equal; nra|reflexivity].
  - split; [intros Q; discriminate Q|]. intros Q. injection Q as -> -> ->. exfalso. apply E. ring.
Qed.
Print Assumptions C34_affine_inverses.
Definition wp (k : R) : mat34 R := M34 (rot345 k) (V3 1 2 3).
Example C34_witness : col_orthogonal (lin34 (wp 2)) /\ uniform_scale (lin34 (wp 2)) /\ fst (InverseColOrthogonal34 (wp 2)) = true /\
  fst (InverseOrthogonalUniformScale34 (wp 2)) = true /\ orthonormal_cols (lin34 (wp 1)).
Proof.
  destruct C30_orthogonal_witness as (O & U & A & _ & B). destruct (C34_affine_inverses (wp 2) (wp 2)) as (_ & _ & _ & E & F).
  split; [exact O|]. split; [exact U|]. split; [rewrite E; exact A|]. split; [|exact B].
  destruct (fst (InverseOrthogonalUniformScale34 (wp 2))); [easy|]. destruct F as [F _]. specialize (F eq_refl).
  apply (f_equal vx) in F. cbn in F. lra.
Qed.
(** Finding: the two scaled affine-inverse templates divide by the scale once where twice is needed. *)
Theorem C34_affine_templates_refuted :
  col_orthogonal (lin34 (wp 2)) /\ uniform_scale (lin34 (wp 2)) /\
  ~ inverses34 (wp 2) (InverseAffineMatrixUniformScale (wp 2)) /\ ~ inverses34 (wp 2) (InverseAffineMatrixNonuniformScale (wp 2)).
Proof.
  destruct C34_witness as (O & U & _). split; [exact O|]. split; [exact U|].
  assert (S : sqrt (1 / 4) = 1 / 2) by (replace (1/4) with ((1/2)*(1/2)) by field; apply sqrt_square; lra).
  assert (E0 : LengthSq (row0 (Transposed3 (lin34 (wp 2)))) = 4) by (unfold wp, rot345, LengthSq; munf; field).
  assert (E1 : LengthSq (row1 (Transposed3 (lin34 (wp 2)))) = 4) by (unfold wp, rot345, LengthSq; munf; field).
  assert (E2 : LengthSq (row2 (Transposed3 (lin34 (wp 2)))) = 4) by (unfold wp, rot345, LengthSq; munf; field).
  split; intros I; destruct (I (V3 0 0 0)) as [I0 _]; destruct (I (V3 0 0 1)) as [I1 _];
    unfold InverseAffineMatrixUniformScale, InverseAffineMatrixNonuniformScale in *; rewrite ?E0, ?E1, ?E2 in *; cbn [nsqrt Num_R] in *;
    change (@n1 R Num_R) with 1 in *; change (@ndiv R Num_R) with Rdiv in *; rewrite S in *; clear -I0 I1; unfold wp, rot345 in *; munf;
    injection I0; injection I1; intros; lra.
Qed.
Print Assumptions C34_affine_templates_refuted.
(** Finding: the contiguous BatchTransformDir adds the translation. *)
Theorem C34_BatchTransform (p : mat34 R) (l : list pt) :
  BatchTransformPos34 p l = map (apply34 p) l /\ BatchTransformDirStrided34 p l = map (apply (lin34 p)) l.
Proof. split; reflexivity. Qed.
Print Assumptions C34_BatchTransform.
Theorem C34_BatchTransformDir_refuted (p : mat34 R) (v : pt) : trans34 p <> V3 0 0 0 -> BatchTransformDir34 p [v] <> map (apply (lin34 p)) [v].
Proof.
  intros N Q. injection Q. intros Ez Ey Ex. apply N. destruct p as [m [t1 t2 t3]]. unfold muldir34, mulv in *. rsimpl. cbn in *.
  unfold apply, dot in *. f_equal; lra.
Qed.
Print Assumptions C34_BatchTransformDir_refuted.
(** Finding: Adjugate is the cofactor matrix, the transpose of the adjugate it is documented to be. *)
Theorem C34_Adjugate (m : mat4 R) v : apply4 m (apply4 (Transposed4 (Adjugate m)) v) =
  X4 (Determinant4 m * w0 v) (Determinant4 m * w1 v) (Determinant4 m * w2 v) (Determinant4 m * w3 v).
Proof. apply adjugate_transposed. Qed.
Print Assumptions C34_Adjugate.
Theorem C34_Adjugate_refuted : exists m : mat4 R, exists v, apply4 m (apply4 (Adjugate m) v) <>
  X4 (Determinant4 m * w0 v) (Determinant4 m * w1 v) (Determinant4 m * w2 v) (Determinant4 m * w3 v).
Proof.
  exists (M4 (X4 1 1 0 0) (X4 0 1 0 0) (X4 0 0 1 0) (X4 0 0 0 1)), (X4 1 0 0 0). intros E. apply (f_equal w0) in E. revert E.
  unfold Adjugate, of_g4. cbv [Nat.odd Nat.even Nat.add negb]. det4. unfold apply4, dotp4. cbn [r40 r41 r42 r43 w0 w1 w2 w3]. lra.
Qed.
Print Assumptions C34_Adjugate_refuted.

(** Completeness of the LU decomposition: a factorisation whose pivots are at least 1e-3 is found. *)
Theorem C33_LU_complete (n : nat) (A L U : gmat R) : meq n (mprod n L U) A -> unit_lower n L -> upper_triangular n U ->
  (forall i, (i < n)%nat -> 1 / 1000 <= Rabs (U i i)) -> fst (LUDecomposeMatrix n A) = true.
Proof. apply LUDecomposeMatrix_complete. Qed.
Print Assumptions C33_LU_complete.
Example C33_witness (n : nat) : exists L U : gmat R,
  LUDecomposeMatrix n (fun i j => if Nat.eqb i j then 3 else if Nat.ltb i j then 2 else 0) = (true, (L, U)).
Proof.
  set (A := fun i j => _). assert (F : fst (LUDecomposeMatrix n A) = true).
  { apply (LUDecomposeMatrix_complete n A kron A).
    - apply mprod_1_l.
    - intros i j Hi Hj. unfold kron. split; intros E; destruct (Nat.eqb_spec i j); try easy; lia.
    - intros i j Hi Hj L. unfold A. destruct (Nat.eqb_spec i j); [lia|]. destruct (Nat.ltb_spec i j); [lia|easy].
    - intros i Hi. unfold A. rewrite Nat.eqb_refl. rewrite Rabs_pos_eq; lra. }
  destruct (LUDecomposeMatrix n A) as [ok [L U]]. cbn [fst] in F. subst ok. now exists L, U.
Qed.

(** * C65: TranslateOp and ScaleOp *)
Theorem C65_transform_ops (p : mat34 R) (m : mat3 R) (A : mat4 R) (t s x : pt) :
  apply34 (TranslateOp34 t) x = plus x t /\ apply (ScaleOp3 s) x = V3 (vx s * vx x) (vy s * vy x) (vz s * vz x) /\
  apply34 (ScaleOp34 s) x = apply (ScaleOp3 s) x /\
  TranslateTimes34 t p = mulm34 (TranslateOp34 t) p /\ TimesTranslate34 p t = mulm34 p (TranslateOp34 t) /\
  ScaleTimes3 s m = mulm (ScaleOp3 s) m /\ TimesScale3 m s = mulm m (ScaleOp3 s) /\
  ScaleTimes34 s p = mulm34 (ScaleOp34 s) p /\ TimesScale34 p s = mulm34 p (ScaleOp34 s) /\
  ScaleTranslate s t = mulm34 (ScaleOp34 s) (TranslateOp34 t) /\ TranslateScale t s = mulm34 (TranslateOp34 t) (ScaleOp34 s) /\
  ScaleTimes4 s A = mulm4 (of34 (ScaleOp34 s)) A /\ TimesScale4 A s = mulm4 A (of34 (ScaleOp34 s)).
Proof.
  destruct (ops_apply t s x) as [O1 O2]. split; [exact O1|]. split; [exact O2|]. split; [apply vec_ext; mdes; munf; ring|]. apply transform_ops.
Qed.
Print Assumptions C65_transform_ops.
(** With a float4x4 the translation shortcuts need the last row (0,0,0,1). *)
Theorem C65_translate4 (A : mat4 R) (t : pt) : r43 A = X4 0 0 0 1 ->
  TranslateTimes4 t A = mulm4 (of34 (TranslateOp34 t)) A /\ TimesTranslate4 A t = mulm4 A (of34 (TranslateOp34 t)).
Proof. apply transform_ops4. Qed.
Print Assumptions C65_translate4.
Theorem C65_translate4_projective_refuted : exists (A : mat4 R) t,
  TranslateTimes4 t A <> mulm4 (of34 (TranslateOp34 t)) A /\ TimesTranslate4 A t <> mulm4 A (of34 (TranslateOp34 t)).
Proof.
  exists (OpenGLPerspProjLH 1 3 1 1), (V3 0 0 1). split; intros E.
  - apply (f_equal r42) in E. apply (f_equal w2) in E. revert E. unfold OpenGLPerspProjLH, projMat. munf. lra.
  - apply (f_equal r43) in E. apply (f_equal w3) in E. revert E. unfold OpenGLPerspProjLH, projMat. munf. lra.
Qed.
Print Assumptions C65_translate4_projective_refuted.
Theorem C65_about_point (r : mat34 R) (s c x : pt) :
  (trans34 r = V3 0 0 0 -> apply34 (AboutPoint34 r c) x = plus c (apply (lin34 r) (minus x c))) /\
  apply34 (ScaleAbout34 s c) x = plus c (apply (ScaleOp3 s) (minus x c)).
Proof. split; [apply about_point|apply scale_about]. Qed.
Print Assumptions C65_about_point.
(** Finding: ScaleAlongAxis scales the coordinate axes by the components of [axis * factor]; it does not keep the directions
    perpendicular to the axis. *)
Theorem C65_ScaleAlongAxis_refuted (k : R) : unitv ex /\ orth ex ey /\ apply (ScaleAlongAxis3 ex k) ey = V3 0 0 0.
Proof.
  split; [unfold unitv; gunf; cbn; ring|]. split; [unfold orth; gunf; cbn; ring|]. apply vec_ext; unfold ScaleAlongAxis3; munf; ring.
Qed.
Print Assumptions C65_ScaleAlongAxis_refuted.

(** * C66: projection matrices *)
Definition projections : list (R * bool * bool * (R -> R -> R -> R -> mat4 R)) :=   (* lowest z, perspective, left-handed *)
  [(0, false, true, D3DOrthoProjLH); (0, false, false, D3DOrthoProjRH); (0, true, true, D3DPerspProjLH); (0, true, false, D3DPerspProjRH);
   (-1, false, true, OpenGLOrthoProjLH); (-1, false, false, OpenGLOrthoProjRH); (-1, true, true, OpenGLPerspProjLH); (-1, true, false, OpenGLPerspProjRH)].
(** The view volume (left-handed: depth z, right-handed: depth -z) is exactly what maps into the clip cube. *)
Theorem C66_view_volume (n f h v : R) (p : pt) : 0 < n -> n < f -> 0 < h -> 0 < v ->
  forall zlo persp lh M, In (zlo, persp, lh, M) projections ->
  let depth := if lh then vz p else - vz p in
  ((if persp then persp_volume else ortho_volume) depth n f h v p <-> clip_cube zlo (Transform4 (M n f h v) (hpoint p))).
Proof.
  intros N F H V zlo persp lh M I. destruct (projections_clip n f h v p) as (E1 & E2 & E3 & E4 & E5 & E6 & E7 & E8); [lra..|].
  cbn [projections In] in I. repeat destruct I as [I|I]; try contradiction; injection I as <- <- <- <-; cbn zeta iota;
    rewrite ?E1, ?E2, ?E3, ?E4, ?E5, ?E6, ?E7, ?E8; (apply ortho_clip_volume || apply persp_clip_volume); lra.
Qed.
Print Assumptions C66_view_volume.
(** The image keeps its orientation and proportions: the near plane's rectangle of size h x v becomes the square of side 2 at
    the lowest z, the far plane lands at z = 1, and a perspective divides by the depth. *)
Theorem C66_image (n f h v : R) (p : pt) : 0 < n -> n < f -> 0 < h -> 0 < v ->
  forall zlo persp lh M, In (zlo, persp, lh, M) projections ->
  let depth := if lh then vz p else - vz p in
  let q := dehom (Transform4 (M n f h v) (hpoint p)) in
  depth <> 0 ->
  vx q = vx p * (if persp then n / depth else 1) / (h / 2) /\ vy q = vy p * (if persp then n / depth else 1) / (v / 2) /\
  (depth = n -> vz q = zlo) /\ (depth = f -> vz q = 1).
Proof.
  intros N F H V zlo persp lh M I. destruct (projections_clip n f h v p) as (E1 & E2 & E3 & E4 & E5 & E6 & E7 & E8); [lra..|].
  cbn [projections In] in I. repeat destruct I as [I|I]; try contradiction; injection I as <- <- <- <-; cbn zeta iota; intros D;
    rewrite ?E1, ?E2, ?E3, ?E4, ?E5, ?E6, ?E7, ?E8; unfold dehom, ortho_clip, persp_clip; cbn [w0 w1 w2 w3 vx vy vz];
    (split; [field; lra|]); (split; [field; lra|]); split; intros ->; field; lra.
Qed.
Print Assumptions C66_image.
Example C66_witness : persp_volume 2 1 3 1 1 (V3 1 0 2) /\ clip_cube (-1) (Transform4 (OpenGLPerspProjLH 1 3 1 1) (hpoint (V3 1 0 2))) /\
  ~ clip_cube (-1) (Transform4 (OpenGLPerspProjLH 1 3 1 1) (hpoint (V3 1 0 4))).
Proof.
  assert (A : persp_volume 2 1 3 1 1 (V3 1 0 2)) by (unfold persp_volume; cbn [vx vy vz]; lra). split; [exact A|].
  pose proof (C66_view_volume 1 3 1 1 (V3 1 0 2) ltac:(lra) ltac:(lra) ltac:(lra) ltac:(lra) (-1) true true OpenGLPerspProjLH ltac:(cbn; tauto)) as W.
  pose proof (C66_view_volume 1 3 1 1 (V3 1 0 4) ltac:(lra) ltac:(lra) ltac:(lra) ltac:(lra) (-1) true true OpenGLPerspProjLH ltac:(cbn; tauto)) as W2.
  cbn zeta iota in W, W2. cbn [vz] in W, W2. split; [now apply W|]. rewrite <- W2. unfold persp_volume. lra.
Qed.

(** * C67: decomposition *)
Theorem C67_Decompose (p : mat34 R) : 0 < norm (apply (lin34 p) ex) -> 0 < norm (apply (lin34 p) ey) -> 0 < norm (apply (lin34 p) ez) ->
  let '(t, r, s) := Decompose34 p in
  FromTRS t r s = p /\ vx s = norm (apply (lin34 p) ex) /\ vy s = norm (apply (lin34 p) ey) /\ vz s = norm (apply (lin34 p) ez) /\
  unitv (apply r ex) /\ unitv (apply r ey) /\ unitv (apply r ez) /\ (col_orthogonal (lin34 p) -> orthonormal_cols r).
Proof. apply decompose_compose. Qed.
Print Assumptions C67_Decompose.
(** Conversely, composing and decomposing returns the parts when the scale is positive. *)
Theorem C67_FromTRS (t : pt) (r : mat3 R) (s : pt) : orthonormal_cols r -> 0 < vx s -> 0 < vy s -> 0 < vz s ->
  Decompose34 (FromTRS t r s) = (t, r, s) /\ forall x, apply34 (FromTRS t r s) x = plus (apply r (apply (ScaleOp3 s) x)) t.
Proof.
  intros O S1 S2 S3. split; [|intros x; apply vec_ext; mdes; munf; ring].
  assert (N : forall k v, 0 < k -> unitv v -> norm (scale k v) = k).
  { intros k v K U. rewrite norm_scale. unfold norm. rewrite U, sqrt_1, Rabs_pos_eq; lra. }
  apply orthonormal_cols_iff in O. destruct O as (_ & U1 & U2 & U3).
  unfold Decompose34, Decompose3, ExtractScale. destruct (cols_apply (lin34 (FromTRS t r s))) as (-> & -> & ->). change (@Length R Num_R) with norm.
  replace (apply (lin34 (FromTRS t r s)) ex) with (scale (vx s) (apply r ex)) by (apply vec_ext; clear; mdes; munf; ring).
  replace (apply (lin34 (FromTRS t r s)) ey) with (scale (vy s) (apply r ey)) by (apply vec_ext; clear; mdes; munf; ring).
  replace (apply (lin34 (FromTRS t r s)) ez) with (scale (vz s) (apply r ez)) by (apply vec_ext; clear; mdes; munf; ring).
  rewrite !N by easy. destruct s as [a b c], t as [t1 t2 t3], r as [[a1 a2 a3] [a4 a5 a6] [a7 a8 a9]]. cbn [vx vy vz] in S1, S2, S3. clear -S1 S2 S3.
  munf. apply pair_equal_spec. split; [|reflexivity]. apply pair_equal_spec. split; mext; try field; lra.
Qed.
Print Assumptions C67_FromTRS.
Example C67_witness : Decompose34 (FromTRS (V3 1 2 3) (rot345 1) (V3 2 3 4)) = (V3 1 2 3, rot345 1, V3 2 3 4).
Proof. apply C67_FromTRS; cbn; try lra. apply C30_orthogonal_witness. Qed.
(** Finding: RemoveScale normalises the rows, so M = M' * S (float3x3.h:546, scale applied first) is not what it inverts. *)
Theorem C67_RemoveScale_refuted : exists (r : mat3 R) s, orthonormal_cols r /\ 0 < vx s /\ 0 < vy s /\ 0 < vz s /\ RemoveScale (FromRS r s) <> r.
Proof.
  exists (rot345 1), (V3 5 1 1). split; [apply C30_orthogonal_witness|]. do 3 (split; [cbn; lra|]). intros E.
  apply (f_equal row0) in E. revert E. unfold RemoveScale. cbn [row0]. intros E.
  assert (W : row0 (FromRS (rot345 1) (V3 5 1 1)) = V3 3 (- (4/5)) 0) by (unfold FromRS, rot345; munf; apply vec_ext; cbn; field).
  rewrite W in E. clear W.
  assert (D : dot (V3 3 (- (4/5)) 0) (V3 3 (- (4/5)) 0) = 9 + 16/25) by (gunf; field).
  assert (L : 3 < norm (V3 3 (- (4/5)) 0)).
  { unfold norm. rewrite D. rewrite <- (sqrt_square 3) at 1 by lra. apply sqrt_lt_1_alt. lra. }
  rewrite Normalized_R in E by lra. set (k := norm _) in *. clearbody k. assert (E0 := f_equal vx E). assert (E1 := f_equal vy E). cbn in E0, E1.
  assert (P : k * / k = 1) by (apply Rinv_r; lra). set (j := / k) in *. clearbody j. lra.
Qed.
Print Assumptions C67_RemoveScale_refuted.

(** * C68: mirroring, projecting and looking at *)
(** The matrices of a plane n.x = d with unit normal: the mirror is the isometric involution exchanging the sides, the
    projection the nearest point of the plane. *)
Theorem C68_plane_matrices (n : pt) (d : R) (x : pt) : unitv n ->
  let M := apply34 (Mirror34 (Pln n d)) in let P := apply34 (OrthographicProjection34 (Pln n d)) in
  M (M x) = x /\ (forall y, dist (M x) (M y) = dist x y) /\ dot n (M x) - d = - (dot n x - d) /\ (M x = x <-> dot n x = d) /\
  dot n (P x) = d /\ (forall y, dot n y = d -> dist x (P x) <= dist x y) /\ P (P x) = P x /\ P x = scale (1/2) (plus x (M x)).
Proof.
  intros U. cbv zeta. rewrite !mirror_apply, !project_apply. unfold unitv in U.
  assert (DM : forall k y, dot n (minus y (scale k n)) = dot n y - k) by (intros; rewrite dot_minus_r, dot_scale_r, U; ring).
  rewrite !DM. split; [apply vec_ext; gunf; ring|]. split.
  { intros y. rewrite mirror_apply. unfold dist, norm. f_equal.
    replace (minus (minus x (scale (2 * (dot n x - d)) n)) (minus y (scale (2 * (dot n y - d)) n)))
      with (minus (minus x y) (scale (2 * (dot n (minus x y))) n)) by (apply vec_ext; gunf; ring).
    set (w := minus x y). rewrite dot_minus_l, !dot_minus_r, !dot_scale_l, !dot_scale_r, U, (dot_comm w n). ring. }
  split; [ring|]. split.
  { split; intros E.
    - apply (f_equal (dot n)) in E. rewrite DM in E. lra.
    - rewrite E. apply vec_ext; gunf; ring. }
  split; [ring|]. split.
  { intros y Y. unfold dist, norm. apply sqrt_le_1_alt.
    replace (minus x (minus x (scale (dot n x - d) n))) with (scale (dot n x - d) n) by (apply vec_ext; gunf; ring).
    rewrite dot_scale_l, dot_scale_r, U, <- Y, <- dot_minus_r. pose proof (cauchy_sq n (minus x y)) as C. rewrite U in C. lra. }
  split; [apply vec_ext; gunf; ring|]. apply vec_ext; gunf; field.
Qed.
Print Assumptions C68_plane_matrices.
Theorem C68_LookAt (f t u w : pt) : unitv f -> unitv t -> unitv u -> orth f u -> 1 / 1000000 < norm (cross w t) ->
  rotation (apply (LookAt3 f t u w)) /\ apply (LookAt3 f t u w) f = t /\
  (exists k, 0 < k /\ scale k (apply (LookAt3 f t u w) u) = minus w (scale (dot w t) t)).
Proof. apply LookAt3_correct. Qed.
Print Assumptions C68_LookAt.
(** The eye/target form sends the origin to the eye and the forward direction towards the target. *)
Theorem C68_LookAt_eye (eye target f u w : pt) : unitv f -> unitv u -> orth f u -> 1 / 1000000 < dist eye target ->
  1 / 1000000 < norm (cross w (scale (/ dist eye target) (minus target eye))) ->
  let p := LookAt34 eye target f u w in
  apply34 p (V3 0 0 0) = eye /\ apply34 p (scale (dist eye target) f) = target /\ (forall x y, dist (apply34 p x) (apply34 p y) = dist x y).
Proof.
  intros Uf Uu O D W. cbv zeta. unfold LookAt34.
  assert (E : dist eye target = norm (minus target eye)) by (unfold dist, norm; f_equal; gunf; ring). rewrite E in *.
  change (vsub target eye) with (minus target eye). rewrite Normalized_R by easy.
  set (k := norm (minus target eye)) in *. assert (K : k * k = dot (minus target eye) (minus target eye)) by apply norm_sq.
  set (t := scale (/ k) (minus target eye)) in *.
  assert (Ut : unitv t) by (unfold unitv, t; rewrite dot_scale_l, dot_scale_r, <- K; field; lra).
  destruct (LookAt3_correct f t u w Uf Ut Uu O W) as ((R1 & _) & R2 & _). set (M := LookAt3 f t u w) in *. clearbody M.
  split; [apply vec_ext; mdes; munf; ring|]. unfold apply34. cbn [lin34 trans34]. split.
  - replace (apply M (scale k f)) with (scale k (apply M f)) by (apply vec_ext; mdes; munf; ring). rewrite R2. unfold t.
    clearbody k. apply vec_ext; gunf; field; lra.
  - intros x y. unfold dist, norm. f_equal. rewrite <- (R1 (minus x y) (minus x y)). f_equal; apply vec_ext; clear; mdes; munf; ring.
Qed.
Print Assumptions C68_LookAt_eye.
Example C68_witness : unitv ez /\ unitv (V3 (3/5) 0 (4/5)) /\ unitv ey /\ orth ez ey /\ 1 / 1000000 < norm (cross ey (V3 (3/5) 0 (4/5))).
Proof.
  unfold unitv, orth, cross, norm. gunf. cbn. repeat split; try field.
  match goal with |- _ < sqrt ?x => replace x with 1 by field end. rewrite sqrt_1. lra.
Qed.
