(** Proofs about the matrix classes over R. *)
From Coq Require Import Reals Lra Lia Psatz List Arith.
From Verif Require Import Num NumR ScalarModel Vec3Model GeoTypes GeoSpec GeoLemmas GMatModel GMatSpec GMatProofs MatModel MatSpec.
Import ListNotations.
Open Scope R_scope.

Ltac mdes := repeat match goal with
  | m : mat34 R |- _ => destruct m | m : mat4 R |- _ => destruct m | m : mat3 R |- _ => destruct m
  | v : vec R |- _ => destruct v | v : v4 R |- _ => destruct v | p : plane R |- _ => destruct p end.
Ltac munf := cbv [apply apply34 applyT apply4 dotp4 hpoint hdir dehom ex ey ez
  mulv mulpos34 muldir34 mulm mulmRow mulm34 mulm34_3 mulm3_34 Transposed3 col0 col1 col2 ofCols mk3 ScaleRows ScaleCols identity3 identity34
  TransformLeft mscale mdivs madd msub mneg TranslateOp34 ScaleOp3 ScaleOp34 TranslateTimes34 TimesTranslate34 ScaleTimes3 TimesScale3
  ScaleTimes34 TimesScale34 ScaleTranslate TranslateScale FromTRS Transform4 TransformLeft4 dot4 mulm4 of34 of3 x34 xyz4 Float3x4Part
  mulRow4_34 mulm4_34 mulRow4_3 mulm4_3 mulm3_4 mulm34_4 Transposed4 setTranslate4 TranslateTimes4 TimesTranslate4 ScaleTimes4 TimesScale4
  TransformPos4 TransformDir4 identity4 at4 PlaneMirror3 PlaneProject3 Mirror34 OrthographicProjection34
  lin34 trans34 row0 row1 row2 r40 r41 r42 r43 w0 w1 w2 w3 pnormal pd
  vadd vsub vneg vmul vmuls Dot Cross LengthSq plus minus scale dot volume vx vy vz
  n0 n1 n2 nhalf nadd nsub nmul ndiv nneg nabs nsqrt nlit Num_R Rlit] in *.
Lemma v4_ext (a b : v4 R) : w0 a = w0 b -> w1 a = w1 b -> w2 a = w2 b -> w3 a = w3 b -> a = b.
Proof. destruct a, b. cbn. now intros -> -> -> ->. Qed.

Lemma mulv_apply (m : mat3 R) v : mulv m v = apply m v. Proof. reflexivity. Qed.
Lemma mulpos34_apply (p : mat34 R) v : mulpos34 p v = apply34 p v. Proof. reflexivity. Qed.
Lemma mulm_apply (a b : mat3 R) v : apply (mulm a b) v = apply a (apply b v).
Proof. apply vec_ext; mdes; munf; ring. Qed.
Lemma mulm34_apply (a b : mat34 R) v : apply34 (mulm34 a b) v = apply34 a (apply34 b v).
Proof. apply vec_ext; mdes; munf; ring. Qed.
Lemma mulm4_apply (a b : mat4 R) v : apply4 (mulm4 a b) v = apply4 a (apply4 b v).
Proof. apply v4_ext; mdes; munf; ring. Qed.
Lemma apply_id v : apply identity3 v = v.
Proof. apply vec_ext; mdes; munf; ring. Qed.
Lemma transposed_dot (m : mat3 R) a b : dot (apply (Transposed3 m) a) b = dot a (apply m b).
Proof. mdes; munf; ring. Qed.
Lemma det_volume (m : mat3 R) a b c : volume (apply m a) (apply m b) (apply m c) = Determinant m * volume a b c.
Proof. unfold Determinant. mdes; munf; ring. Qed.
Lemma det_columns (m : mat3 R) : Determinant m = volume (apply m ex) (apply m ey) (apply m ez).
Proof. rewrite det_volume. unfold volume, ex, ey, ez. cbn. ring. Qed.
Lemma det_mul (a b : mat3 R) : Determinant (mulm a b) = Determinant a * Determinant b.
Proof. unfold Determinant. mdes; munf; ring. Qed.
Lemma det_transposed (m : mat3 R) : Determinant (Transposed3 m) = Determinant m.
Proof. unfold Determinant. mdes; munf; ring. Qed.
Lemma det_sum (m : mat3 R) : det3_sum m = Determinant m.
Proof. unfold Determinant, det3_sum. mdes; munf; ring. Qed.
Lemma det_symmetric (m : mat3 R) : symmetric3 m -> DeterminantSymmetric m = Determinant m.
Proof.
  intros S. assert (S1 := S ex ey). assert (S2 := S ex ez). assert (S3 := S ey ez). unfold Determinant, DeterminantSymmetric. clear S.
  destruct m as [[a b c] [d e f] [g h i]]. munf. replace d with b in * by lra. replace g with c in * by lra. replace h with f in * by lra. ring.
Qed.
(** Two linear maps agreeing on the unit vectors are equal. *)
Lemma apply_inj (a b : mat3 R) : (forall v, apply a v = apply b v) -> a = b.
Proof.
  intros E. assert (E1 := E ex). assert (E2 := E ey). assert (E3 := E ez). clear E. mdes. munf.
  injection E1. injection E2. injection E3. intros. repeat f_equal; lra.
Qed.
Lemma inverses_mulm (a b : mat3 R) : inverses a b <-> mulm a b = identity3 /\ mulm b a = identity3.
Proof.
  split.
  - intros I. split; apply apply_inj; intros v; rewrite mulm_apply, apply_id; apply I.
  - intros [I J] v. rewrite <- !mulm_apply, I, J. split; apply apply_id.
Qed.

(** ** Inverses of 3x3 matrices *)
Lemma g3_inverse (m : mat3 R) (B : gmat R) : inverse_of 3 (g3 m) B -> inverses m (of_g3 B).
Proof.
  intros [I J]. apply inverses_mulm.
  assert (I' : forall i j, (i < 3)%nat -> (j < 3)%nat -> mprod 3 (g3 m) B i j = kron i j) by exact I.
  assert (J' : forall i j, (i < 3)%nat -> (j < 3)%nat -> mprod 3 B (g3 m) i j = kron i j) by exact J. clear I J.
  assert (Q : forall i j, (i < 3)%nat -> (j < 3)%nat -> mprod 3 (g3 m) B i j = kron i j /\ mprod 3 B (g3 m) i j = kron i j) by auto. clear I' J'.
  assert (Q00 := Q 0%nat 0%nat ltac:(lia) ltac:(lia)). assert (Q01 := Q 0%nat 1%nat ltac:(lia) ltac:(lia)). assert (Q02 := Q 0%nat 2%nat ltac:(lia) ltac:(lia)).
  assert (Q10 := Q 1%nat 0%nat ltac:(lia) ltac:(lia)). assert (Q11 := Q 1%nat 1%nat ltac:(lia) ltac:(lia)). assert (Q12 := Q 1%nat 2%nat ltac:(lia) ltac:(lia)).
  assert (Q20 := Q 2%nat 0%nat ltac:(lia) ltac:(lia)). assert (Q21 := Q 2%nat 1%nat ltac:(lia) ltac:(lia)). assert (Q22 := Q 2%nat 2%nat ltac:(lia) ltac:(lia)).
  clear Q. destruct m as [[a b c] [d e f] [g h i]].
  unfold of_g3, mulm, mulmRow, identity3, mk3. unfold mprod, g3, kron in *. cbn [sumn row3_at at3 row0 row1 row2 Vec3Model.vx Vec3Model.vy Vec3Model.vz Nat.eqb] in *.
  rsimpl. split; repeat f_equal; lra.
Qed.
Lemma Inverse3_correct (m m' : mat3 R) eps : 0 < eps -> Inverse3 m eps = (true, m') -> inverses m m'.
Proof.
  intros He. unfold Inverse3. destruct (InverseMatrix 3 (g3 m) eps) as [ok B] eqn:E. destruct ok; intros Q; [|discriminate Q].
  assert (of_g3 B = m') as <- by exact (f_equal snd Q). apply g3_inverse. now apply InverseMatrix_correct with eps.
Qed.
Lemma Inverse3_failure (m m' : mat3 R) eps : Inverse3 m eps = (false, m') -> m' = m.
Proof.
  unfold Inverse3. destruct (InverseMatrix 3 (g3 m) eps) as [ok B]. destruct ok; intros Q; [discriminate Q|]. now injection Q.
Qed.
Lemma inverses_det (a b : mat3 R) : inverses a b -> Determinant a * Determinant b = 1.
Proof.
  intros I. apply inverses_mulm in I. destruct I as [I _]. rewrite <- det_mul, I. unfold Determinant, identity3, mk3. cbn. ring.
Qed.
Definition adj3 (m : mat3 R) : mat3 R :=
  let '(M3 (V3 a b c) (V3 d e f) (V3 g h i)) := m in
  mk3 (e * i - f * h) (c * h - b * i) (b * f - c * e) (f * g - d * i) (a * i - c * g) (c * d - a * f) (d * h - e * g) (g * b - a * h) (a * e - b * d).
Lemma adj3_r (m : mat3 R) v : apply m (apply (adj3 m) v) = scale (Determinant m) v.
Proof. destruct m as [[a b c] [d e f] [g h i]], v as [x y z]. apply vec_ext; unfold adj3, Determinant; munf; ring. Qed.
Lemma adj3_l (m : mat3 R) v : apply (adj3 m) (apply m v) = scale (Determinant m) v.
Proof. destruct m as [[a b c] [d e f] [g h i]], v as [x y z]. apply vec_ext; unfold adj3, Determinant; munf; ring. Qed.
Lemma mscale_apply (m : mat3 R) k v : apply (mscale m k) v = scale k (apply m v).
Proof. apply vec_ext; mdes; munf; ring. Qed.
Lemma apply_scale (m : mat3 R) k v : apply m (scale k v) = scale k (apply m v).
Proof. apply vec_ext; mdes; munf; ring. Qed.
Lemma apply_plus (m : mat3 R) u v : apply m (plus u v) = plus (apply m u) (apply m v).
Proof. apply vec_ext; mdes; munf; ring. Qed.
Lemma scale_scale j k v : scale j (scale k v) = scale (j * k) v.
Proof. apply vec_ext; mdes; munf; ring. Qed.
Lemma scale_1 v : scale 1 v = v.
Proof. apply vec_ext; mdes; munf; ring. Qed.
Lemma adj3_inverse (m m' : mat3 R) k : k * Determinant m = 1 -> m' = mscale (adj3 m) k -> inverses m m'.
Proof.
  intros K -> v. rewrite mscale_apply, apply_scale, adj3_r. rewrite mscale_apply, adj3_l, !scale_scale, K, scale_1. easy.
Qed.
Lemma EqualAbs_nz (x e : R) : 0 < e -> EqualAbs x n0 e = false -> x <> 0.
Proof.
  intros He C Z. assert (EqualAbs x n0 e = true); [|congruence]. apply EqualAbs_R. change (@n0 R Num_R) with 0.
  rewrite Z, Rminus_0_r, Rabs_R0. easy.
Qed.
Lemma InverseFast_correct (m m' : mat3 R) eps : 0 < eps -> InverseFast m eps = (true, m') -> inverses m m'.
Proof.
  intros He. unfold InverseFast. destruct (EqualAbs (Determinant m) n0 eps) eqn:C; intros Q; [discriminate Q|].
  apply EqualAbs_nz in C; [|easy]. apply (adj3_inverse _ _ (1 / Determinant m)); [field; easy|].
  apply (f_equal snd) in Q. cbn [snd] in Q. rewrite <- Q. clear Q. destruct m as [[a b c] [d e f] [g h i]].
  set (D := Determinant _) in *. unfold adj3. munf. f_equal; f_equal; ring.
Qed.
Lemma InverseFast_exact (m : mat3 R) eps : fst (InverseFast m eps) = true <-> eps <= Rabs (Determinant m).
Proof.
  unfold InverseFast. destruct (EqualAbs (Determinant m) n0 eps) eqn:C; cbn [fst].
  - apply EqualAbs_R in C. change (@n0 R Num_R) with 0 in C. rewrite Rminus_0_r in C. split; [discriminate|lra].
  - split; [|easy]. intros _. destruct (Rle_dec eps (Rabs (Determinant m))) as [|N]; [easy|]. exfalso.
    assert (EqualAbs (Determinant m) n0 eps = true); [|congruence]. apply EqualAbs_R. change (@n0 R Num_R) with 0. rewrite Rminus_0_r. lra.
Qed.
Lemma nlit_pos n d : (0 < n)%Z -> 0 < (nlit n d : R).
Proof. intros. rewrite nlit_R. apply Rdiv_lt_0_compat; apply IZR_lt; lia. Qed.
Lemma InverseSymmetric_correct (m m' : mat3 R) : symmetric3 m -> InverseSymmetric m = (true, m') -> inverses m m'.
Proof.
  intros S. pose proof (det_symmetric m S) as DS. unfold InverseSymmetric.
  match goal with |- context [EqualAbs ?d n0 ?e] => set (D := d) in *; destruct (EqualAbs D n0 e) eqn:C end; intros Q; [discriminate Q|].
  apply EqualAbs_nz in C; [|apply nlit_pos; lia].
  assert (ED : D = Determinant m) by (rewrite <- DS; unfold D, DeterminantSymmetric; munf; ring).
  apply (adj3_inverse _ _ (1 / Determinant m)); [rewrite <- ED; field; easy|]. rewrite <- ED.
  apply (f_equal snd) in Q. cbn [snd] in Q. rewrite <- Q. clear Q DS ED. clearbody D.
  assert (S1 := S ex ey). assert (S2 := S ex ez). assert (S3 := S ey ez). clear S.
  destruct m as [[a b c] [d e f] [g h i]]. unfold adj3. munf.
  replace d with b in * by lra. replace g with c in * by lra. replace h with f in * by lra. f_equal; f_equal; ring.
Qed.

(** Transposing with scaled rows inverts a matrix with orthogonal columns. *)
Lemma transposed_rows_inverse (m : mat3 R) (k : pt) : col_orthogonal m ->
  vx k * dot (apply m ex) (apply m ex) = 1 -> vy k * dot (apply m ey) (apply m ey) = 1 -> vz k * dot (apply m ez) (apply m ez) = 1 ->
  inverses m (ScaleRows (Transposed3 m) k).
Proof.
  intros (O1 & O2 & O3) K1 K2 K3.
  assert (L : forall v, apply (ScaleRows (Transposed3 m) k) (apply m v) = v).
  { intros v. unfold orth in *. destruct m as [[a b c] [d e f] [g h i]], k as [k1 k2 k3], v as [x y z]. apply vec_ext; munf.
    - transitivity (x * (k1 * ((a * 1 + b * 0 + c * 0) * (a * 1 + b * 0 + c * 0) + (d * 1 + e * 0 + f * 0) * (d * 1 + e * 0 + f * 0) + (g * 1 + h * 0 + i * 0) * (g * 1 + h * 0 + i * 0))) + y * k1 * (a * b + d * e + g * h) + z * k1 * (a * c + d * f + g * i)); [ring|]. rewrite K1. replace (a * b + d * e + g * h) with 0 by lra. replace (a * c + d * f + g * i) with 0 by lra. ring.
    - transitivity (y * (k2 * (b * b + e * e + h * h)) + x * k2 * (a * b + d * e + g * h) + z * k2 * (b * c + e * f + h * i)); [ring|]. replace (k2 * (b * b + e * e + h * h)) with 1 by lra. replace (a * b + d * e + g * h) with 0 by lra. replace (b * c + e * f + h * i) with 0 by lra. ring.
    - transitivity (z * (k3 * (c * c + f * f + i * i)) + x * k3 * (a * c + d * f + g * i) + y * k3 * (b * c + e * f + h * i)); [ring|]. replace (k3 * (c * c + f * f + i * i)) with 1 by lra. replace (a * c + d * f + g * i) with 0 by lra. replace (b * c + e * f + h * i) with 0 by lra. ring. }
  (* a left inverse of a square matrix is a right inverse *)
  intros v. split; [|apply L]. set (n := ScaleRows (Transposed3 m) k) in *. clearbody n.
  assert (D : Determinant n * Determinant m = 1).
  { rewrite <- det_mul. replace (mulm n m) with (@identity3 R _); [unfold Determinant, identity3, mk3; cbn; ring|].
    apply apply_inj. intros u. now rewrite mulm_apply, apply_id, L. }
  assert (A : forall u, apply m (scale (Determinant n) (apply (adj3 m) u)) = u).
  { intros u. rewrite apply_scale, adj3_r, scale_scale, D, scale_1. easy. }
  rewrite <- (A v) at 1. rewrite L. apply A.
Qed.
Lemma cols_apply (m : mat3 R) : col0 m = apply m ex /\ col1 m = apply m ey /\ col2 m = apply m ez.
Proof. repeat split; apply vec_ext; mdes; munf; ring. Qed.
Lemma lt8_false (x : R) : nltb x (nlit 1 100000000) = false -> 0 < x.
Proof. rewrite nlit_R. intros C. cbn [nltb Num_R] in C. destruct (Rltb_spec x (1 / 100000000)); [discriminate C|]. lra. Qed.
Lemma InverseColOrthogonal_correct (m m' : mat3 R) : col_orthogonal m -> InverseColOrthogonal m = (true, m') -> inverses m m'.
Proof.
  intros O. unfold InverseColOrthogonal. destruct (cols_apply m) as (-> & -> & ->). rewrite !LengthSq_R.
  destruct (nltb (dot (apply m ex) (apply m ex)) _) eqn:C1; [intros Q; discriminate Q|]. destruct (nltb (dot (apply m ey) (apply m ey)) _) eqn:C2; [intros Q; discriminate Q|].
  destruct (nltb (dot (apply m ez) (apply m ez)) _) eqn:C3; [intros Q; discriminate Q|]. cbn [orb]. intros Q. assert (Q' := f_equal snd Q). cbn [snd] in Q'. rewrite <- Q'.
  apply lt8_false in C1, C2, C3. apply transposed_rows_inverse; [easy|..]; rsimpl; cbn [vx vy vz]; field; lra.
Qed.
Lemma InverseOrthogonalUniformScale_correct (m m' : mat3 R) : col_orthogonal m -> uniform_scale m ->
  InverseOrthogonalUniformScale m = (true, m') -> inverses m m'.
Proof.
  intros O (U1 & U2). apply (f_equal (fun x => x * x)) in U1, U2. rewrite !norm_sq in U1, U2.
  unfold InverseOrthogonalUniformScale. destruct (cols_apply m) as (-> & _ & _). rewrite !LengthSq_R.
  destruct (nltb (dot (apply m ex) (apply m ex)) _) eqn:C1; [intros Q; discriminate Q|]. intros Q. assert (Q' := f_equal snd Q). cbn [snd] in Q'. rewrite <- Q'.
  apply lt8_false in C1. apply transposed_rows_inverse; [easy|..]; rsimpl; cbn [vx vy vz]; rewrite <- ?U1, <- ?U2; field; lra.
Qed.
Lemma rows_one (m : mat3 R) : ScaleRows m (V3 1 1 1) = m.
Proof. destruct m as [[a b c] [d e f] [g h i]]. munf. repeat f_equal; ring. Qed.
Definition orthonormal_cols (m : mat3 R) : Prop := forall u v, dot (apply m u) (apply m v) = dot u v.
Lemma orthonormal_cols_iff (m : mat3 R) : orthonormal_cols m <-> col_orthogonal m /\ unitv (apply m ex) /\ unitv (apply m ey) /\ unitv (apply m ez).
Proof.
  split.
  - intros O. unfold col_orthogonal, orth, unitv. rewrite !O. unfold dot, ex, ey, ez. cbn. repeat split; ring.
  - intros ((O1 & O2 & O3) & U1 & U2 & U3) u v. unfold orth, unitv in *.
    assert (D : forall w, apply m w = plus (plus (scale (vx w) (apply m ex)) (scale (vy w) (apply m ey))) (scale (vz w) (apply m ez))).
    { intros w. apply vec_ext; mdes; munf; ring. }
    rewrite (D u), (D v). rewrite !dot_plus_l, !dot_plus_r, !dot_scale_l, !dot_scale_r.
    rewrite (dot_comm (apply m ey) (apply m ex)), (dot_comm (apply m ez) (apply m ex)), (dot_comm (apply m ez) (apply m ey)).
    rewrite O1, O2, O3, U1, U2, U3. unfold dot. ring.
Qed.
Lemma InverseOrthonormal_correct (m : mat3 R) : orthonormal_cols m -> inverses m (InverseOrthonormal m).
Proof.
  intros O. apply orthonormal_cols_iff in O. destruct O as (O & U1 & U2 & U3). unfold unitv in *.
  unfold InverseOrthonormal. rewrite <- (rows_one (Transposed3 m)).
  apply transposed_rows_inverse; [easy|..]; cbn [vx vy vz]; rewrite ?U1, ?U2, ?U3; ring.
Qed.
Lemma InverseTranspose_correct (m m' : mat3 R) : InverseTranspose m = (true, m') ->
  forall a b, dot (apply m' a) (apply m b) = dot a b.
Proof.
  unfold InverseTranspose. destruct (Inverse3 m (nlit 1 1000000)) as [ok i] eqn:E. intros Q a b.
  assert (ok = true) as -> by exact (f_equal fst Q). assert (Transposed3 i = m') as <- by exact (f_equal snd Q).
  rewrite transposed_dot. apply Inverse3_correct in E; [|apply nlit_pos; lia]. destruct (E b) as [_ ->]. easy.
Qed.
Lemma InverseTransposed_correct (m : mat3 R) : fst (Inverse3 (Transposed3 m) (nlit 1 1000000)) = true ->
  forall a b, dot (apply (InverseTransposed m) a) (apply m b) = dot a b.
Proof.
  unfold InverseTransposed, Inverted3. destruct (Inverse3 (Transposed3 m) (nlit 1 1000000)) as [ok i] eqn:E. cbn [fst snd]. intros -> a b.
  apply Inverse3_correct in E; [|apply nlit_pos; lia]. rewrite <- transposed_dot. destruct (E a) as [-> _]. easy.
Qed.

(** ** SolveAxb *)
Lemma solve_core (v00 v01 v02 b0 v10 v11 v12 b1 v20 v21 v22 b2 x0 x1 x2 y0 y1 y2 : R) :
  v00 <> 0 ->
  let u01 := v01 * (1 / v00) in let u02 := v02 * (1 / v00) in let c0 := b0 * (1 / v00) in
  let u11 := v11 - v10 * u01 in let u12 := v12 - v10 * u02 in let c1 := b1 - v10 * c0 in
  let u21 := v21 - v20 * u01 in let u22 := v22 - v20 * u02 in let c2 := b2 - v20 * c0 in
  (v00 * y0 + v01 * y1 + v02 * y2 = b0 /\ v10 * y0 + v11 * y1 + v12 * y2 = b1 /\ v20 * y0 + v21 * y1 + v22 * y2 = b2) <->
  (y0 = c0 - u01 * y1 - u02 * y2 /\ u11 * y1 + u12 * y2 = c1 /\ u21 * y1 + u22 * y2 = c2).
Proof.
  intros N. cbv zeta.
  assert (A : v00 * y0 + v01 * y1 + v02 * y2 = b0 <-> y0 = b0 * (1 / v00) - v01 * (1 / v00) * y1 - v02 * (1 / v00) * y2).
  { split; [intros <-|intros ->]; field; easy. }
  rewrite A. split; intros (-> & E1 & E2); (split; [easy|]); split.
  - rewrite <- E1. ring.
  - rewrite <- E2. ring.
  - replace b1 with (v10 * (b0 * (1 / v00)) + (b1 - v10 * (b0 * (1 / v00)))) by ring. rewrite <- E1. ring.
  - replace b2 with (v20 * (b0 * (1 / v00)) + (b2 - v20 * (b0 * (1 / v00)))) by ring. rewrite <- E2. ring.
Qed.
Lemma solve_core2 (u11 u12 c1 u21 u22 c2 y1 y2 : R) :
  u11 <> 0 -> u22 - u21 * (u12 * (1 / u11)) <> 0 ->
  (u11 * y1 + u12 * y2 = c1 /\ u21 * y1 + u22 * y2 = c2) <->
  (y2 = (c2 - u21 * (c1 * (1 / u11))) / (u22 - u21 * (u12 * (1 / u11))) /\ y1 = c1 * (1 / u11) - y2 * (u12 * (1 / u11))).
Proof.
  intros N1 N2. set (d := u22 - u21 * (u12 * (1 / u11))) in *.
  split.
  - intros (E1 & E2).
    assert (Y1 : y1 = c1 * (1 / u11) - y2 * (u12 * (1 / u11))) by (rewrite <- E1; field; easy).
    split; [|exact Y1]. apply (Rmult_eq_reg_r d); [|easy]. rewrite <- E2, Y1. unfold d. field. unfold d in N2. split; [easy|].
    intros Z. apply N2. replace (u22 - u21 * (u12 * (1 / u11))) with ((u22 * u11 - u21 * u12) / u11) by (field; easy). rewrite Z. field; easy.
  - intros (Y2 & Y1). assert (D : y2 * d = c2 - u21 * (c1 * (1 / u11))) by (rewrite Y2; field; easy).
    rewrite Y1. split; [field; easy|].
    transitivity (u21 * (c1 * (1 / u11)) + y2 * d); [unfold d; ring|]. rewrite D. ring.
Qed.
(** The part of SolveAxb after the first row exchange. *)
Definition solve_tail (e0 e1 e2 : vec R * R) : option (vec R) :=
    let '(V3 v00 v01 v02, b0) := e0 in
    let '(V3 v10 v11 v12, b1) := e1 in
    let '(V3 v20 v21 v22, b2) := e2 in
    if EqualAbs v00 n0 (nlit 1 1000) then None else
    let denom := 1 / v00 in
    let v01 := v01 * denom in let v02 := v02 * denom in let b0 := b0 * denom in
    let v11 := v11 - v10 * v01 in let v12 := v12 - v10 * v02 in let b1 := b1 - v10 * b0 in
    let v21 := v21 - v20 * v01 in let v22 := v22 - v20 * v02 in let b2 := b2 - v20 * b0 in
    let '(v11, v12, b1, v21, v22, b2) :=
      if nltb (Abs v11) (Abs v21) then (v21, v22, b2, v11, v12, b1) else (v11, v12, b1, v21, v22, b2) in
    if EqualAbs v11 n0 (nlit 1 1000) then None else
    let denom := 1 / v11 in
    let v12 := v12 * denom in let b1 := b1 * denom in
    let v22 := v22 - v21 * v12 in let b2 := b2 - v21 * b1 in
    if EqualAbs v22 n0 (nlit 1 1000) then None else
    let x2 := b2 / v22 in
    let x1 := b1 - x2 * v12 in
    let x0 := b0 - x2 * v02 - x1 * v01 in
    Some (V3 x0 x1 x2).
Lemma solve_tail_correct e0 e1 e2 x : solve_tail e0 e1 e2 = Some x ->
  forall y, (dot (fst e0) y = snd e0 /\ dot (fst e1) y = snd e1 /\ dot (fst e2) y = snd e2) <-> y = x.
Proof.
  destruct e0 as [[v00 v01 v02] b0], e1 as [[v10 v11 v12] b1], e2 as [[v20 v21 v22] b2]. unfold solve_tail.
  destruct (EqualAbs v00 n0 (nlit 1 1000)) eqn:C0; [intros Q; discriminate Q|]. apply EqualAbs_nz in C0; [|apply nlit_pos; lia].
  cbv zeta. intros Q y. destruct y as [y0 y1 y2]. cbn [fst snd]. unfold dot. cbn [vx vy vz].
  rewrite (solve_core v00 v01 v02 b0 v10 v11 v12 b1 v20 v21 v22 b2 0 0 0 y0 y1 y2 C0).
  set (u01 := v01 * (1 / v00)) in *. set (u02 := v02 * (1 / v00)) in *. set (c0 := b0 * (1 / v00)) in *. cbv zeta.
  set (u11 := v11 - v10 * u01) in *. set (u12 := v12 - v10 * u02) in *. set (c1 := b1 - v10 * c0) in *.
  set (u21 := v21 - v20 * u01) in *. set (u22 := v22 - v20 * u02) in *. set (c2 := b2 - v20 * c0) in *.
  clearbody u01 u02 c0 u11 u12 c1 u21 u22 c2. clear v00 v01 v02 b0 v10 v11 v12 b1 v20 v21 v22 b2 C0.
  assert (G : forall u11 u12 c1 u21 u22 c2,
    (if EqualAbs u11 n0 (nlit 1 1000) then None else
     if EqualAbs (u22 - u21 * (u12 * (1 / u11))) n0 (nlit 1 1000) then None else
     Some (V3 (c0 - (c2 - u21 * (c1 * (1 / u11))) / (u22 - u21 * (u12 * (1 / u11))) * u02 -
               (c1 * (1 / u11) - (c2 - u21 * (c1 * (1 / u11))) / (u22 - u21 * (u12 * (1 / u11))) * (u12 * (1 / u11))) * u01)
              (c1 * (1 / u11) - (c2 - u21 * (c1 * (1 / u11))) / (u22 - u21 * (u12 * (1 / u11))) * (u12 * (1 / u11)))
              ((c2 - u21 * (c1 * (1 / u11))) / (u22 - u21 * (u12 * (1 / u11)))))) = Some x ->
    (y0 = c0 - u01 * y1 - u02 * y2 /\ u11 * y1 + u12 * y2 = c1 /\ u21 * y1 + u22 * y2 = c2) <-> V3 y0 y1 y2 = x).
  { clear. intros u11 u12 c1 u21 u22 c2.
    destruct (EqualAbs u11 n0 (nlit 1 1000)) eqn:C1; [intros Q; discriminate Q|]. apply EqualAbs_nz in C1; [|apply nlit_pos; lia].
    destruct (EqualAbs (u22 - u21 * (u12 * (1 / u11))) n0 (nlit 1 1000)) eqn:C2; [intros Q; discriminate Q|]. apply EqualAbs_nz in C2; [|apply nlit_pos; lia].
    intros Q. injection Q as <-. rewrite (solve_core2 u11 u12 c1 u21 u22 c2 y1 y2 C1 C2).
    set (X2 := (c2 - u21 * (c1 * (1 / u11))) / (u22 - u21 * (u12 * (1 / u11)))). clearbody X2. split.
    - intros (E0 & E2 & E1). subst y2. subst y1. subst y0. f_equal; ring.
    - intros E. injection E as E0 E1 E2. subst y0 y1 y2. repeat split; ring. }
  destruct (nltb (Abs u11) (Abs u21)).
  - rewrite <- (G u21 u22 c2 u11 u12 c1 Q). tauto.
  - apply G. exact Q.
Qed.
Lemma SolveAxb_correct (m : mat3 R) b x : SolveAxb m b = Some x -> forall y, apply m y = b <-> y = x.
Proof.
  intros S y. unfold SolveAxb in S.
  assert (A : apply m y = b <-> (dot (row0 m) y = vx b /\ dot (row1 m) y = vy b /\ dot (row2 m) y = vz b)).
  { split; [intros <-; unfold apply; cbn; easy|]. intros (E0 & E1 & E2). apply vec_ext; easy. }
  rewrite A. clear A.
  assert (P : forall e0 e1 e2, solve_tail e0 e1 e2 = Some x ->
    (dot (fst e0) y = snd e0 /\ dot (fst e1) y = snd e1 /\ dot (fst e2) y = snd e2) <-> y = x) by (intros; now apply solve_tail_correct).
  destruct (_ && _)%bool.
  - rewrite <- (P (row1 m, vy b) (row0 m, vx b) (row2 m, vz b) S). cbn [fst snd]. tauto.
  - destruct (Abs (vx (row2 m)) >=? Abs (vx (row0 m)))%num.
    + rewrite <- (P (row2 m, vz b) (row1 m, vy b) (row0 m, vx b) S). cbn [fst snd]. tauto.
    + rewrite <- (P (row0 m, vx b) (row1 m, vy b) (row2 m, vz b) S). cbn [fst snd]. tauto.
Qed.

(** ** Affine inverses *)
Lemma affine_inverse (m n : mat3 R) t : inverses m n -> inverses34 (M34 m t) (M34 n (apply n (scale (-1) t))).
Proof.
  intros I v. unfold apply34. cbn [lin34 trans34]. split.
  - rewrite apply_plus. destruct (I v) as [-> _]. destruct (I (scale (-1) t)) as [-> _]. apply vec_ext; gunf; ring.
  - rewrite <- apply_plus. replace (plus (plus (apply m v) t) (scale (-1) t)) with (apply m v) by (apply vec_ext; gunf; ring). apply I.
Qed.
Lemma inv34_shape (p : mat34 R) n : inverses (lin34 p) n -> inverses34 p (M34 n (mulv n (vneg (trans34 p)))).
Proof. intros I. destruct p as [m t]. cbn [trans34 lin34] in *. rewrite vneg_R. now apply affine_inverse. Qed.
Lemma InverseOrthonormal34_correct (p : mat34 R) : orthonormal_cols (lin34 p) -> inverses34 p (InverseOrthonormal34 p).
Proof. intros O. unfold InverseOrthonormal34. apply inv34_shape. now apply InverseOrthonormal_correct. Qed.
Lemma InverseColOrthogonal34_correct (p p' : mat34 R) : col_orthogonal (lin34 p) -> InverseColOrthogonal34 p = (true, p') -> inverses34 p p'.
Proof.
  intros O Q. pose proof (InverseColOrthogonal_correct (lin34 p) (lin34 p') O) as L.
  unfold InverseColOrthogonal34, InverseColOrthogonal in *. cbv zeta in Q.
  destruct (_ || _)%bool; [discriminate Q|]. assert (Q' := f_equal snd Q). cbn [snd] in Q'. subst p'. cbn [lin34] in L.
  apply inv34_shape. now apply L.
Qed.
(** With uniform scale the rows are as long as the columns. *)
Lemma uniform_rows (m : mat3 R) : col_orthogonal m -> uniform_scale m -> dot (row0 m) (row0 m) = dot (apply m ex) (apply m ex).
Proof.
  intros O (U1 & U2). apply (f_equal (fun x => x * x)) in U1, U2. rewrite !norm_sq in U1, U2.
  set (s := dot (apply m ex) (apply m ex)) in *. symmetry in U1, U2.
  destruct (Req_dec s 0) as [Z|N].
  - assert (Z1 := dot_zero (apply m ex) Z). rewrite Z in *. assert (Z2 := dot_zero (apply m ey) U1). assert (Z3 := dot_zero (apply m ez) U2).
    clear -Z1 Z2 Z3. destruct m as [[a b c] [d e f] [g h i]]. unfold origin in *. munf. injection Z1. injection Z2. injection Z3. intros.
    replace a with 0 by lra. replace b with 0 by lra. replace c with 0 by lra. ring.
  - assert (I : inverses m (ScaleRows (Transposed3 m) (V3 (1 / s) (1 / s) (1 / s)))).
    { apply transposed_rows_inverse; [easy|..]; cbn [vx vy vz]; rewrite ?U1, ?U2; fold s; field; easy. }
    destruct (I ex) as [E _]. apply (f_equal vx) in E. clear -E N. clearbody s. destruct m as [[a b c] [d e f] [g h i]]. munf.
    apply (Rmult_eq_reg_r (1 / s)); [|intros Z; apply N; apply (Rmult_eq_compat_r s) in Z; replace (1 / s * s) with 1 in Z by (field; easy); lra].
    replace (s * (1 / s)) with 1 by (field; easy). etransitivity; [|exact E]. set (k := 1 / s). ring.
Qed.
Lemma InverseOrthogonalUniformScale34_correct (p p' : mat34 R) : col_orthogonal (lin34 p) -> uniform_scale (lin34 p) ->
  InverseOrthogonalUniformScale34 p = (true, p') -> inverses34 p p'.
Proof.
  intros O U. unfold InverseOrthogonalUniformScale34. cbv zeta.
  assert (E : LengthSq (col0 (Transposed3 (lin34 p))) = dot (apply (lin34 p) ex) (apply (lin34 p) ex)).
  { rewrite <- uniform_rows by easy. rewrite LengthSq_R. destruct p as [[[a b c] [d e f] [g h i]] t]. reflexivity. }
  rewrite E. destruct (neqb _ n0) eqn:C; intros Q; [discriminate Q|]. assert (Q' := f_equal snd Q). cbn [snd] in Q'. subst p'. clear Q.
  apply Reqb_false in C. change (@n0 R Num_R) with 0 in C. apply inv34_shape.
  destruct U as (U1 & U2). apply (f_equal (fun x => x * x)) in U1, U2. rewrite !norm_sq in U1, U2.
  apply transposed_rows_inverse; [easy|..]; rsimpl; cbn [vx vy vz]; rewrite <- ?U1, <- ?U2; field; easy.
Qed.

(** ** 4x4 *)
Definition e40 : v4 R := X4 1 0 0 0. Definition e41 : v4 R := X4 0 1 0 0. Definition e42 : v4 R := X4 0 0 1 0. Definition e43 : v4 R := X4 0 0 0 1.
Lemma apply4_inj (a b : mat4 R) : (forall v, apply4 a v = apply4 b v) -> a = b.
Proof.
  intros E. assert (E1 := E e40). assert (E2 := E e41). assert (E3 := E e42). assert (E4 := E e43). clear E. unfold e40, e41, e42, e43 in *. mdes. munf.
  injection E1. injection E2. injection E3. injection E4. intros. repeat f_equal; lra.
Qed.
Lemma apply4_id v : apply4 identity4 v = v.
Proof. apply v4_ext; mdes; munf; ring. Qed.
Lemma inverses4_mulm (a b : mat4 R) : inverses4 a b <-> mulm4 a b = identity4 /\ mulm4 b a = identity4.
Proof.
  split.
  - intros I. split; apply apply4_inj; intros v; rewrite mulm4_apply, apply4_id; apply I.
  - intros [I J] v. rewrite <- !mulm4_apply, I, J. split; apply apply4_id.
Qed.
Lemma mulm4_of_g4 (A B C : gmat R) : meq 4 (mprod 4 A B) C -> mulm4 (of_g4 A) (of_g4 B) = of_g4 C.
Proof.
  intros E. unfold of_g4, mulm4, TransformLeft4, at4. cbn [r40 r41 r42 r43 w0 w1 w2 w3]. rsimpl.
  unfold meq, mprod in E. cbn [sumn] in E.
  repeat f_equal; match goal with |- _ = C ?i ?j => rewrite <- (E i j) by lia end; ring.
Qed.
Lemma g4_of (m : mat4 R) : of_g4 (g4 m) = m. Proof. now destruct m as [[] [] [] []]. Qed.
Lemma g4_inverse (m : mat4 R) (B : gmat R) : inverse_of 4 (g4 m) B -> inverses4 m (of_g4 B).
Proof.
  intros [I J]. apply inverses4_mulm. rewrite <- (g4_of m) at 1 2.
  assert (K : of_g4 kron = (identity4 : mat4 R)) by reflexivity. rewrite <- K. split; now apply mulm4_of_g4.
Qed.
Lemma Inverse4_correct (m m' : mat4 R) eps : 0 < eps -> Inverse4 m eps = (true, m') -> inverses4 m m'.
Proof.
  intros He. unfold Inverse4. destruct (InverseMatrix 4 (g4 m) eps) as [ok B] eqn:E. intros Q.
  assert (ok = true) as -> by exact (f_equal fst Q). assert (of_g4 B = m') as <- by exact (f_equal snd Q).
  apply g4_inverse. now apply InverseMatrix_correct with eps.
Qed.
Lemma of34_apply (p : mat34 R) v : apply4 (of34 p) (hpoint v) = hpoint (apply34 p v).
Proof. apply v4_ext; mdes; munf; ring. Qed.
Lemma of34_dir (p : mat34 R) v : apply4 (of34 p) (hdir v) = hdir (apply (lin34 p) v).
Proof. apply v4_ext; mdes; munf; ring. Qed.
(** The inverse of an affine matrix is affine. *)
Lemma inverse_affine (p : mat34 R) (m' : mat4 R) : inverses4 (of34 p) m' -> of34 (Float3x4Part m') = m'.
Proof.
  intros I.
  assert (E : forall v, w3 (apply4 m' v) = w3 v).
  { intros v. destruct (I v) as [J _]. apply (f_equal w3) in J. rewrite <- J. mdes. munf. ring. }
  assert (E0 := E e40). assert (E1 := E e41). assert (E2 := E e42). assert (E3 := E e43). clear I E. unfold e40, e41, e42, e43 in *.
  destruct m' as [[] [] [] []]. munf. f_equal. f_equal; lra.
Qed.
Lemma Inverse34_correct (p p' : mat34 R) eps : 0 < eps -> Inverse34 p eps = (true, p') -> inverses34 p p'.
Proof.
  intros He. unfold Inverse34. destruct (Inverse4 (of34 p) eps) as [ok i] eqn:E. intros Q.
  assert (ok = true) as -> by exact (f_equal fst Q). assert (Float3x4Part i = p') as <- by exact (f_equal snd Q).
  apply Inverse4_correct in E; [|easy]. pose proof (inverse_affine p i E) as A. intros v.
  destruct (E (hpoint v)) as [E1 E2]. rewrite <- A in E1, E2. rewrite !of34_apply in E1, E2.
  split; [revert E1|revert E2]; intros X; injection X; intros; apply vec_ext; easy.
Qed.
(** Success when the matrix is invertible and the tolerance small enough. *)
Lemma g3_invertible (m n : mat3 R) : inverses m n -> invertible 3 (g3 m).
Proof.
  intros I. exists (g3 n). apply inverses_mulm in I. destruct I as [I J].
  destruct m as [[a b c] [d e f] [g h i]], n as [[a' b' c'] [d' e' f'] [g' h' i']]. unfold mulm, mulmRow, identity3, mk3 in I, J. cbn [row0 row1 row2 Vec3Model.vx Vec3Model.vy Vec3Model.vz] in I, J. rsimpl.
  injection I. injection J. intros.
  split; intros x y Hx Hy; unfold mprod, g3, kron; cbn [sumn];
  (destruct x as [|[|[|x]]]; [..|lia]); (destruct y as [|[|[|y]]]; [..|lia]); cbn; lra.
Qed.
Lemma g4_invertible (m n : mat4 R) : inverses4 m n -> invertible 4 (g4 m).
Proof.
  intros I. exists (g4 n). apply inverses4_mulm in I. destruct I as [I J].
  split; intros x y Hx Hy;
  [assert (Q : g4 (mulm4 m n) x y = g4 identity4 x y) by now rewrite I | assert (Q : g4 (mulm4 n m) x y = g4 identity4 x y) by now rewrite J];
  clear I J; unfold mprod, kron; cbn [sumn];
  (destruct x as [|[|[|[|x]]]]; [..|lia]); (destruct y as [|[|[|[|y]]]]; [..|lia]);
  destruct m as [[] [] [] []], n as [[] [] [] []]; cbn in Q |- *; lra.
Qed.
Lemma Inverse3_complete (m n : mat3 R) : inverses m n -> exists e0, 0 < e0 /\ forall eps, 0 < eps <= e0 -> fst (Inverse3 m eps) = true.
Proof.
  intros I. destruct (InverseMatrix_complete 3 (g3 m) (g3_invertible m n I)) as (e0 & H0 & C). exists e0. split; [easy|]. intros eps He.
  specialize (C eps He). unfold Inverse3. destruct (InverseMatrix 3 (g3 m) eps) as [ok B]. cbn [fst] in C. subst ok. easy.
Qed.
Lemma Inverse4_complete (m n : mat4 R) : inverses4 m n -> exists e0, 0 < e0 /\ forall eps, 0 < eps <= e0 -> fst (Inverse4 m eps) = true.
Proof.
  intros I. destruct (InverseMatrix_complete 4 (g4 m) (g4_invertible m n I)) as (e0 & H0 & C). exists e0. split; [easy|]. intros eps He.
  specialize (C eps He). unfold Inverse4. destruct (InverseMatrix 4 (g4 m) eps) as [ok B]. cbn [fst] in *. easy.
Qed.
Lemma LUDecompose_correct (m l u : mat4 R) : LUDecompose m = (true, (l, u)) ->
  mulm4 l u = m /\ unit_lower 4 (g4 l) /\ upper_triangular 4 (g4 u).
Proof.
  unfold LUDecompose. destruct (LUDecomposeMatrix 4 (g4 m)) as [ok [l' u']] eqn:E. intros Q.
  assert (ok = true) as -> by exact (f_equal fst Q). injection Q as <- <-.
  apply LUDecomposeMatrix_correct in E. destruct E as (E & L & U). split; [|split].
  - rewrite (mulm4_of_g4 _ _ _ E). apply g4_of.
  - intros i j Hi Hj. specialize (L i j Hi Hj). destruct i as [|[|[|[|i]]]]; [..|lia]; (destruct j as [|[|[|[|j]]]]; [..|lia]); exact L.
  - intros i j Hi Hj. specialize (U i j Hi Hj). destruct i as [|[|[|[|i]]]]; [..|lia]; (destruct j as [|[|[|[|j]]]]; [..|lia]); exact U.
Qed.

(** Determinants in four dimensions. *)
Ltac det4 := unfold Determinant4, Minor, SubMatrix, det3_sum, skipnum, mk3, g4, row4_at, at4;
  cbn [Nat.leb r40 r41 r42 r43 w0 w1 w2 w3 row0 row1 row2 vx vy vz]; rsimpl.
Lemma det4_transposed (m : mat4 R) : Determinant4 (Transposed4 m) = Determinant4 m.
Proof. destruct m as [[a b c d] [e f g h] [i j k l] [n o p q]]. unfold Transposed4, at4. det4. ring. Qed.
(** Multiplicativity through 2x2 minors: the determinant is a bilinear form of the minors of the first two and last two rows. *)
Record six := S6 { s01 : R; s02 : R; s03 : R; s12 : R; s13 : R; s23 : R }.
Definition wedge (u v : v4 R) : six :=
  S6 (w0 u * w1 v - w1 u * w0 v) (w0 u * w2 v - w2 u * w0 v) (w0 u * w3 v - w3 u * w0 v)
     (w1 u * w2 v - w2 u * w1 v) (w1 u * w3 v - w3 u * w1 v) (w2 u * w3 v - w3 u * w2 v).
Definition star (p q : six) : R :=
  s01 p * s23 q - s02 p * s13 q + s03 p * s12 q + s12 p * s03 q - s13 p * s02 q + s23 p * s01 q.
Definition comb6 (p : six) (a b c d e f : six) : six :=
  let k g := s01 p * g a + s02 p * g b + s03 p * g c + s12 p * g d + s13 p * g e + s23 p * g f in
  S6 (k s01) (k s02) (k s03) (k s12) (k s13) (k s23).
Definition wedge_mat (B : mat4 R) (p : six) : six :=
  comb6 p (wedge (r40 B) (r41 B)) (wedge (r40 B) (r42 B)) (wedge (r40 B) (r43 B)) (wedge (r41 B) (r42 B)) (wedge (r41 B) (r43 B)) (wedge (r42 B) (r43 B)).
Lemma det4_star (m : mat4 R) : Determinant4 m = star (wedge (r40 m) (r41 m)) (wedge (r42 m) (r43 m)).
Proof. destruct m as [[a b c d] [e f g h] [i j k l] [o p q r]]. unfold star, wedge. det4. cbn [s01 s02 s03 s12 s13 s23]. ring. Qed.
Lemma wedge_mul (u v : v4 R) (B : mat4 R) : wedge (TransformLeft4 u B) (TransformLeft4 v B) = wedge_mat B (wedge u v).
Proof.
  destruct u as [a b c d], v as [e f g h], B as [[a' b' c' d'] [e' f' g' h'] [i' j' k' l'] [o' p' q' r']].
  unfold wedge_mat, comb6, wedge, TransformLeft4, at4. cbn [r40 r41 r42 r43 w0 w1 w2 w3 s01 s02 s03 s12 s13 s23]. rsimpl. f_equal; ring.
Qed.
Lemma star_mat (B : mat4 R) (p q : six) : star (wedge_mat B p) (wedge_mat B q) = Determinant4 B * star p q.
Proof.
  rewrite det4_star. destruct p as [p1 p2 p3 p4 p5 p6], q as [q1 q2 q3 q4 q5 q6]. destruct B as [u v x y].
  unfold wedge_mat. cbn [r40 r41 r42 r43].
  (* products of the six minors of the rows: only the complementary pairs survive *)
  assert (P : forall a b c d, star (wedge a b) (wedge c d) = star (wedge c d) (wedge a b)) by (intros [] [] [] []; unfold star, wedge; cbn; ring).
  assert (Z : forall a b c, star (wedge a b) (wedge a c) = 0) by (intros [] [] []; unfold star, wedge; cbn; ring).
  assert (Z2 : forall a b c, star (wedge b a) (wedge a c) = 0) by (intros [] [] []; unfold star, wedge; cbn; ring).
  assert (Z3 : forall a b c, star (wedge b a) (wedge c a) = 0) by (intros [] [] []; unfold star, wedge; cbn; ring).
  assert (Z4 : forall a b c, star (wedge a b) (wedge c a) = 0) by (intros [] [] []; unfold star, wedge; cbn; ring).
  assert (E1 : star (wedge u x) (wedge v y) = - star (wedge u v) (wedge x y)) by (destruct u, v, x, y; unfold star, wedge; cbn; ring).
  assert (E2 : star (wedge u y) (wedge v x) = star (wedge u v) (wedge x y)) by (destruct u, v, x, y; unfold star, wedge; cbn; ring).
  assert (L : forall p a b c d e f q, star (comb6 p a b c d e f) q =
     s01 p * star a q + s02 p * star b q + s03 p * star c q + s12 p * star d q + s13 p * star e q + s23 p * star f q)
   by (intros; unfold star, comb6; cbn; ring).
  assert (L2 : forall p q, star p q = star q p) by (intros; unfold star; ring).
  rewrite L. rewrite !(L2 _ (comb6 _ _ _ _ _ _ _)), !L. cbn [s01 s02 s03 s12 s13 s23].
  rewrite !Z, !Z2, !Z3, !Z4.
  rewrite (P x y u v), (P v y u x), (P v x u y), E1, E2. set (D := star (wedge u v) (wedge x y)). clearbody D.
  unfold star. cbn [s01 s02 s03 s12 s13 s23].
  ring.
Qed.
Lemma det4_mul (m n : mat4 R) : Determinant4 (mulm4 m n) = Determinant4 m * Determinant4 n.
Proof.
  rewrite (det4_star (mulm4 m n)). unfold mulm4. cbn [r40 r41 r42 r43]. rewrite !wedge_mul, star_mat, <- det4_star. ring.
Qed.
Lemma det4_affine (p : mat34 R) : Determinant4 (of34 p) = Determinant (lin34 p).
Proof. destruct p as [[[a b c] [d e f] [g h i]] [x y z]]. unfold of34, x34, Determinant. det4. ring. Qed.
(** The cofactors written out. *)
Lemma adjugate_transposed (m : mat4 R) v :
  apply4 m (apply4 (Transposed4 (Adjugate m)) v) = X4 (Determinant4 m * w0 v) (Determinant4 m * w1 v) (Determinant4 m * w2 v) (Determinant4 m * w3 v).
Proof.
  destruct m as [[a b c d] [e f g h] [i j k l] [o p q r]], v as [x y z w].
  cbv [Adjugate of_g4 Transposed4 apply4 dotp4 Nat.odd Nat.even Nat.add negb Determinant4 Minor SubMatrix det3_sum skipnum mk3 g4 row4_at at4 Nat.leb
       r40 r41 r42 r43 w0 w1 w2 w3 row0 row1 row2 vx vy vz nadd nsub nmul nneg Num_R].
  f_equal; ring.
Qed.
