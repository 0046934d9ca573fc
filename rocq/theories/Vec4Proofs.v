(** float4 over the reals: the functions in terms of the specification's operations. *)
From Coq Require Import Reals Lra Psatz Bool.
From Verif Require Import Num NumR ScalarModel ScalarProofs Vec3Model GeoTypes GeoSpec GeoLemmas MatModel MatSpec RotModel RotProofs3 RotProofs5 Vec2Props Vec4Model Vec4Spec.
Open Scope R_scope.

Lemma v4_ext (a b : q4) : w0 a = w0 b -> w1 a = w1 b -> w2 a = w2 b -> w3 a = w3 b -> a = b.
Proof. destruct a, b; cbn; intros; subst; reflexivity. Qed.
Ltac u4 := unfold lin4, sc4, dotp4, part3 in *; cbn [w0 w1 w2 w3 vx vy vz] in *.
Ltac e4 := apply v4_ext; u4; rsimpl.
Lemma dot4_R (a b : q4) : dot4 a b = dotp4 a b. Proof. reflexivity. Qed.
Lemma LengthSq4_R (a : q4) : LengthSq4 a = dotp4 a a. Proof. reflexivity. Qed.
Lemma Length4_R (a : q4) : Length4 a = nrm4 a. Proof. reflexivity. Qed.
Lemma add4_R (a b : q4) : add4 a b = lin4 1 a 1 b. Proof. unfold add4. e4; ring. Qed.
Lemma sub4_R (a b : q4) : sub4 a b = lin4 1 a (-1) b. Proof. unfold sub4. e4; ring. Qed.
Lemma mul4s_R (a : q4) s : mul4s a s = sc4 s a. Proof. unfold mul4s. e4; ring. Qed.
Lemma smul4_R (a : q4) s : smul4 s a = sc4 s a. Proof. reflexivity. Qed.
Lemma neg4_R (a : q4) : neg4 a = sc4 (-1) a. Proof. unfold neg4. e4; ring. Qed.
Lemma dotp4_lin_l s (a : q4) t b c : dotp4 (lin4 s a t b) c = s * dotp4 a c + t * dotp4 b c. Proof. u4; ring. Qed.
Lemma dotp4_lin_r s (a : q4) t b c : dotp4 c (lin4 s a t b) = s * dotp4 c a + t * dotp4 c b. Proof. u4; ring. Qed.
Lemma dotp4_sc_l s (a b : q4) : dotp4 (sc4 s a) b = s * dotp4 a b. Proof. u4; ring. Qed.
Lemma dotp4_sc_r s (a b : q4) : dotp4 a (sc4 s b) = s * dotp4 a b. Proof. u4; ring. Qed.
Lemma dotp4_comm (a b : q4) : dotp4 a b = dotp4 b a. Proof. u4; ring. Qed.
Lemma dotp4_pos (a : q4) : 0 <= dotp4 a a.
Proof. u4. assert (P : forall x : R, 0 <= x * x) by (intros; nra). pose proof (P (w0 a)). pose proof (P (w1 a)). pose proof (P (w2 a)). pose proof (P (w3 a)). lra. Qed.
Lemma nrm4_sq (a : q4) : nrm4 a * nrm4 a = dotp4 a a. Proof. apply sqrt_sqrt, dotp4_pos. Qed.
Lemma nrm4_pos (a : q4) : 0 <= nrm4 a. Proof. apply sqrt_pos. Qed.
Lemma unit_nrm4 (a : q4) : unit4 a <-> nrm4 a = 1.
Proof. pose proof (nrm4_sq a). pose proof (nrm4_pos a). unfold unit4. split; intros E; [rewrite E in *; nra|]. rewrite E in *. lra. Qed.
Lemma nrm4_sc s (a : q4) : nrm4 (sc4 s a) = Rabs s * nrm4 a.
Proof.
  unfold nrm4. rewrite dotp4_sc_l, dotp4_sc_r. rewrite <- Rmult_assoc, sqrt_mult; [|nra|apply dotp4_pos]. f_equal. change (s * s) with (Rsqr s). apply sqrt_Rsqr_abs.
Qed.
Lemma nrm4_gt (a : q4) : 1/1000000 < dotp4 a a <-> 1/1000 < nrm4 a.
Proof. pose proof (nrm4_sq a). pose proof (nrm4_pos a). split; intros; nra. Qed.
Lemma norm_gt (a : pt) : 1/1000000 < dot a a <-> 1/1000 < norm a.
Proof. pose proof (norm_sq a). pose proof (norm_pos a). split; intros; nra. Qed.
Lemma Normalize4_R (v : q4) : Normalize4 v = if Rltb (1/1000) (nrm4 v) then (sc4 (/ nrm4 v) v, nrm4 v) else (X4 1 0 0 0, 0).
Proof.
  unfold Normalize4. change (LengthSq4 v) with (dotp4 v v). cbv zeta. rsimpl. change (sqrt (dotp4 v v)) with (nrm4 v).
  destruct (Rltb_spec (1/1000000) (dotp4 v v)) as [A|A], (Rltb_spec (1/1000) (nrm4 v)) as [B|B]; try reflexivity.
  - rewrite mul4s_R. f_equal. apply v4_ext; unfold sc4; cbn [w0 w1 w2 w3]; unfold Rdiv; ring.
  - apply nrm4_gt in A. exfalso; lra.
  - apply nrm4_gt in B. exfalso; lra.
Qed.
Lemma Normalize3_R (v : q4) : Normalize3 v = if Rltb (1/1000) (norm (part3 v)) then (x34 (scale (/ norm (part3 v)) (part3 v)) (w3 v), norm (part3 v)) else (X4 1 0 0 (w3 v), 0).
Proof.
  unfold Normalize3. change (LengthSq3 v) with (dot (part3 v) (part3 v)). cbv zeta. rsimpl. change (sqrt (dot (part3 v) (part3 v))) with (norm (part3 v)).
  destruct (Rltb_spec (1/1000000) (dot (part3 v) (part3 v))) as [A|A], (Rltb_spec (1/1000) (norm (part3 v))) as [B|B]; try reflexivity.
  - unfold x34, scale, part3. cbn [vx vy vz]. f_equal. f_equal; unfold Rdiv; ring.
  - apply norm_gt in A. exfalso; lra.
  - apply norm_gt in B. exfalso; lra.
Qed.
Lemma sc4_unit (v : q4) : 0 < nrm4 v -> unit4 (sc4 (/ nrm4 v) v).
Proof. intros P. unfold unit4. rewrite dotp4_sc_l, dotp4_sc_r, <- nrm4_sq. field. lra. Qed.
Lemma Normalize4_unit (v : q4) : unit4 (fst (Normalize4 v)).
Proof. rewrite Normalize4_R. destruct (Rltb_spec (1/1000) (nrm4 v)); cbn [fst]; [apply sc4_unit; lra|]. unfold unit4. u4. ring. Qed.
Lemma ProjectToNorm4_R (v n : q4) : ProjectToNorm4 v n = sc4 (dotp4 v n) n. Proof. apply mul4s_R. Qed.
Lemma Cross3_part (a b : q4) : part3 (Cross3 a b) = Cross (part3 a) (part3 b) /\ w3 (Cross3 a b) = 0.
Proof. split; reflexivity. Qed.
Lemma dotp4_part (a b : q4) : dotp4 a b = dot (part3 a) (part3 b) + w3 a * w3 b. Proof. unfold dot. u4. ring. Qed.
Lemma dotp4_cauchy (a b : q4) : dotp4 a b * dotp4 a b <= dotp4 a a * dotp4 b b.
Proof.
  destruct (Rle_lt_dec (dotp4 b b) 0) as [Z|P].
  - pose proof (dotp4_pos b). assert (dotp4 b b = 0) as B by lra. assert (w0 b = 0 /\ w1 b = 0 /\ w2 b = 0 /\ w3 b = 0) as (B0 & B1 & B2 & B3).
    { clear - B. u4. repeat split; nra. } u4. rewrite B0, B1, B2, B3. nra.
  - pose proof (dotp4_pos (lin4 (dotp4 b b) a (- dotp4 a b) b)) as Q. rewrite dotp4_lin_l, !dotp4_lin_r, (dotp4_comm b a) in Q.
    assert (0 <= dotp4 b b * (dotp4 a a * dotp4 b b - dotp4 a b * dotp4 a b)) by lra.
    destruct (Rle_lt_dec 0 (dotp4 a a * dotp4 b b - dotp4 a b * dotp4 a b)); [lra|nra].
Qed.
