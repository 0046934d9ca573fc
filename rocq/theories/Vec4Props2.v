(** float4, directions: cross products, perpendiculars, reflection, projection, orthonormalisation, angles (property C106). *)
From Coq Require Import Reals Lra Psatz Bool.
From Verif Require Import Num NumR ScalarModel ScalarProofs Vec3Model Vec2Model GeoTypes GeoSpec GeoLemmas MatModel MatSpec MatProofs2 RotModel RotSpec RotProofs3 RotProofs5 Vec2Props Vec3Props Vec4Model Vec4Spec Vec4Proofs.
Open Scope R_scope.

Theorem C106_cross (a b : q4) : let c := Cross3 a b in
  w3 c = 0 /\ dotp4 a c = 0 /\ dotp4 b c = 0 /\ Cross3 b a = neg4 c /\ dotp4 c c = dot (part3 a) (part3 a) * dot (part3 b) (part3 b) - dot (part3 a) (part3 b) * dot (part3 a) (part3 b) /\
  (forall d : q4, w3 d = 0 -> dotp4 c d = volume (part3 a) (part3 b) (part3 d)).
Proof.
  intros c. unfold c, Cross3, neg4. rsimpl. unfold volume, dot. u4. split; [reflexivity|]. split; [ring|]. split; [ring|]. split; [f_equal; ring|]. split; [ring|].
  intros d W. rewrite ?W. ring.
Qed.
Print Assumptions C106_cross.
Lemma part3_hdir (v : pt) : part3 (hdir v) = v. Proof. now destruct v. Qed.
Lemma nrm4_cross (a b : q4) : nrm4 (Cross3 a b) = norm (Cross (part3 a) (part3 b)).
Proof. unfold nrm4, norm. f_equal. rewrite dotp4_part. destruct (Cross3_part a b) as [-> ->]. ring. Qed.
Lemma Perp4_R (v h h2 : q4) : Perpendicular4 v h h2 = if Rltb (1/1000) (nrm4 (Cross3 v h)) then sc4 (/ nrm4 (Cross3 v h)) (Cross3 v h) else h2.
Proof.
  unfold Perpendicular4. rewrite Normalize4_R. destruct (Rltb_spec (1/1000) (nrm4 (Cross3 v h))) as [A|A]; rsimpl.
  - destruct (Reqb_spec (nrm4 (Cross3 v h)) 0); [exfalso; lra|reflexivity].
  - destruct (Reqb_spec 0 0); [reflexivity|exfalso; lra].
Qed.
(** Perpendicular: a unit direction (w = 0) orthogonal to v and to the hint when they are not nearly parallel; otherwise the second hint. *)
Theorem C106_perpendicular (v h h2 : q4) : let p := Perpendicular4 v h h2 in
  (1/1000 < norm (cross (part3 v) (part3 h)) -> unit4 p /\ dotp4 v p = 0 /\ dotp4 h p = 0 /\ w3 p = 0) /\
  (norm (cross (part3 v) (part3 h)) <= 1/1000 -> p = h2).
Proof.
  intros p. unfold p. rewrite Perp4_R, nrm4_cross. destruct (C106_cross v h) as (W & O1 & O2 & _). change (Cross (part3 v) (part3 h)) with (cross (part3 v) (part3 h)).
  destruct (Rltb_spec (1/1000) (norm (cross (part3 v) (part3 h)))) as [A|A]; split; intros B; try (exfalso; lra); [|reflexivity].
  assert (N : nrm4 (Cross3 v h) = norm (cross (part3 v) (part3 h))) by apply nrm4_cross. rewrite <- N. rewrite !dotp4_sc_r, O1, O2.
  split; [apply sc4_unit; lra|]. split; [ring|]. split; [ring|]. unfold sc4. cbn [w3]. rewrite W. ring.
Qed.
Print Assumptions C106_perpendicular.
(** With the default hints (0,1,0,0) and (0,0,1,0): always a unit direction, orthogonal up to 1e-3. *)
Theorem C106_perpendicular_default (v : q4) : let p := Perpendicular4 v (X4 0 1 0 0) (X4 0 0 1 0) in
  unit4 p /\ Rabs (dotp4 v p) <= 1/1000 /\ w3 p = 0.
Proof.
  intros p. destruct (C106_perpendicular v (X4 0 1 0 0) (X4 0 0 1 0)) as [A B]. fold p in A, B.
  destruct (Rlt_le_dec (1/1000) (norm (cross (part3 v) (part3 (X4 0 1 0 0))))) as [L|L].
  - destruct (A L) as (U & O & _ & W). split; [exact U|]. rewrite O, Rabs_R0. split; [lra|exact W].
  - rewrite (B L). split; [unfold unit4; u4; ring|]. split; [|reflexivity]. apply norm_sq_le in L; [|lra]. apply Rabs_le. unfold cross, dot, part3 in L. u4. nra.
Qed.
Print Assumptions C106_perpendicular_default.
Theorem C106_another_perpendicular (v h h2 : q4) : w3 v = 0 -> unit4 v -> 1/1000 < norm (cross (part3 v) (part3 h)) ->
  let p := Perpendicular4 v h h2 in let q := AnotherPerpendicular4 v h h2 in
  unit4 q /\ dotp4 v q = 0 /\ dotp4 p q = 0 /\ w3 q = 0 /\ volume (part3 v) (part3 p) (part3 q) = 1.
Proof.
  intros W U L p q. destruct (C106_perpendicular v h h2) as [A _]. destruct (A L) as (Up & Op & _ & Wp). fold p in Up, Op, Wp. clear A.
  destruct (C106_cross v p) as (Wc & O1 & O2 & _ & N & V).
  assert (Dv : dot (part3 v) (part3 v) = 1) by (pose proof (dotp4_part v v) as E; unfold unit4 in U; rewrite U, W in E; lra).
  assert (Dp : dot (part3 p) (part3 p) = 1) by (pose proof (dotp4_part p p) as E; unfold unit4 in Up; rewrite Up, Wp in E; lra).
  assert (Dvp : dot (part3 v) (part3 p) = 0) by (pose proof (dotp4_part v p) as E; rewrite Op, W in E; lra).
  rewrite Dv, Dp, Dvp in N. assert (N1 : nrm4 (Cross3 v p) = 1) by (apply unit_nrm4; unfold unit4; lra).
  assert (Q : q = Cross3 v p).
  { unfold q, AnotherPerpendicular4. fold p. rewrite Normalize4_R, N1. rewrite (proj2 (Rltb_true _ _)) by lra. cbn [fst]. apply v4_ext; unfold sc4; cbn [w0 w1 w2 w3]; rewrite Rinv_1; ring. }
  rewrite Q. split; [unfold unit4; lra|]. split; [exact O1|]. split; [exact O2|]. split; [exact Wc|]. rewrite <- V by exact Wc. lra.
Qed.
Print Assumptions C106_another_perpendicular.
(** The forms taking float3 hints, and the basis, are those of float3 with w = 0. *)
Theorem C106_perpendicular3 (v : q4) (h h2 : pt) : let p := Perpendicular34 v h h2 in let q := AnotherPerpendicular34 v h h2 in
  p = hdir (Perpendicular (part3 v) h h2) /\ w3 q = 0 /\ unitv (part3 q) /\
  (unitv (part3 v) -> 1/1000000 < norm (cross (part3 v) h) -> orth (part3 v) (part3 q) /\ orth (part3 p) (part3 q) /\ volume (part3 v) (part3 p) (part3 q) = 1).
Proof.
  intros p q. assert (P : p = hdir (Perpendicular (part3 v) h h2)).
  { unfold p, Perpendicular34, Perpendicular. change (xyz4 (Cross3 v (x34 h n0))) with (Cross (part3 v) h). destruct (Normalize (Cross (part3 v) h)) as [w l]. destruct (l =? n0)%num; reflexivity. }
  split; [exact P|]. unfold q, AnotherPerpendicular34. fold p. set (c := Cross3 v p). assert (Wc : w3 c = 0) by reflexivity. assert (Pc : part3 c = cross (part3 v) (part3 p)) by reflexivity. clearbody c.
  rewrite Normalize3_R. split; [destruct (Rltb _ _); exact Wc|]. split.
  - destruct (Rltb_spec (1/1000) (norm (part3 c))) as [A|A]; cbn [fst]; [|unfold unitv, dot, part3; cbn; ring].
    change (part3 (x34 (scale (/ norm (part3 c)) (part3 c)) (w3 c))) with (scale (/ norm (part3 c)) (part3 c)). apply scale_unit; lra.
  - intros Uv L. destruct (C27_perpendicular (part3 v) h h2) as [A _]. destruct (A L) as (Up & Op & _).
    assert (PE : part3 p = Perpendicular (part3 v) h h2) by (rewrite P; apply part3_hdir). rewrite <- PE in *. unfold unitv, orth in *.
    assert (D : dot (part3 c) (part3 c) = 1). { rewrite Pc. pose proof (lagrange (part3 v) (part3 p)) as G. rewrite Uv, Up, Op in G. unfold cross, dot in *. cbn [vx vy vz] in *. nra. }
    assert (N1 : norm (part3 c) = 1) by (unfold norm; rewrite D; apply sqrt_1). rewrite N1. rewrite (proj2 (Rltb_true _ _)) by lra. cbn [fst].
    replace (part3 (x34 (scale (/ 1) (part3 c)) (w3 c))) with (part3 c) by (apply vec_ext; unfold x34, scale, part3; cbn [vx vy vz w0 w1 w2]; rewrite Rinv_1; ring).
    rewrite Pc in D |- *. rewrite cross_dot_l, cross_dot_r. split; [reflexivity|]. split; [reflexivity|].
    rewrite <- D. unfold volume, cross, dot. cbn [vx vy vz]. ring.
Qed.
Print Assumptions C106_perpendicular3.
Theorem C106_perpendicular_basis (v : q4) : w3 v = 0 -> unit4 v -> let (b, c) := PerpendicularBasis4 v in
  unit4 b /\ unit4 c /\ dotp4 v b = 0 /\ dotp4 v c = 0 /\ dotp4 b c = 0 /\ w3 b = 0 /\ w3 c = 0 /\ volume (part3 b) (part3 c) (part3 v) = 1.
Proof.
  intros W U. assert (Uv : unitv (part3 v)) by (unfold unitv; pose proof (dotp4_part v v) as E; unfold unit4 in U; rewrite U, W in E; lra).
  pose proof (C27_perpendicular_basis (part3 v) Uv) as H. unfold PerpendicularBasis4. change (xyz4 v) with (part3 v). destruct (PerpendicularBasis (part3 v)) as [b c].
  destruct H as (A & B & C & D & E & F). unfold unit4. rewrite !dotp4_part, W. change (part3 (x34 b n0)) with (part3 (hdir b)). change (part3 (x34 c n0)) with (part3 (hdir c)). rewrite !part3_hdir. change (w3 (x34 b n0)) with 0. change (w3 (x34 c n0)) with 0.
  unfold unitv, orth in *. rewrite A, B, C, D, E. repeat split; try ring. exact F.
Qed.
Print Assumptions C106_perpendicular_basis.

(** * Projection, reflection, refraction *)
Theorem C106_project (v t : q4) : t <> X4 0 0 0 0 -> let p := ProjectTo4 v t in
  (exists k, p = sc4 k t) /\ dotp4 (lin4 1 v (-1) p) t = 0 /\ (forall k, dst4 v p <= dst4 v (sc4 k t)).
Proof.
  intros N p. assert (P : 0 < dotp4 t t).
  { destruct (dotp4_pos t) as [|E]; [assumption|]. exfalso. apply N. symmetry in E. clear - E. destruct t as [x y z w]. u4. f_equal; nra. }
  assert (E : p = sc4 (dotp4 v t / dotp4 t t) t) by (unfold p, ProjectTo4; rewrite mul4s_R; reflexivity).
  rewrite E. split; [now eexists|]. assert (O : dotp4 (lin4 1 v (-1) (sc4 (dotp4 v t / dotp4 t t) t)) t = 0) by (rewrite dotp4_lin_l, dotp4_sc_l; field; lra). split; [exact O|].
  intros k. unfold dst4, nrm4. apply sqrt_le_1_alt. set (k0 := dotp4 v t / dotp4 t t) in *.
  replace (lin4 1 v (-1) (sc4 k t)) with (lin4 1 (lin4 1 v (-1) (sc4 k0 t)) (k0 - k) t) by (apply v4_ext; u4; ring).
  set (r := lin4 1 v (-1) (sc4 k0 t)) in *. rewrite (dotp4_lin_l 1 r), !dotp4_lin_r, (dotp4_comm t r), O. assert (0 <= (k0-k)*((k0-k) * dotp4 t t)) by (rewrite <- Rmult_assoc; apply Rmult_le_pos; [apply (Rle_0_sqr (k0 - k))|lra]). lra.
Qed.
Print Assumptions C106_project.
Theorem C106_project_norm (v t : q4) (u : pt) :
  (unit4 t -> ProjectToNorm4 v t = ProjectTo4 v t) /\
  (u <> origin -> ProjectTo34 v u = x34 (ProjectTo (part3 v) u) (w3 v)) /\ (unitv u -> ProjectToNorm34 v u = ProjectTo34 v u).
Proof.
  split; [|split].
  - intros U. unfold ProjectToNorm4, ProjectTo4. rewrite !mul4s_R. change (LengthSq4 t) with (dotp4 t t). unfold unit4 in U. rewrite U. rewrite dot4_R. f_equal. rsimpl. field.
  - reflexivity.
  - intros U. unfold ProjectToNorm34, ProjectTo34. f_equal. rewrite LengthSq_R. unfold unitv in U. rewrite U. unfold vdivs. cbv zeta. rsimpl. apply vec_ext; unfold vmuls; cbn [vx vy vz]; rsimpl; field.
Qed.
Print Assumptions C106_project_norm.
Lemma Reflect4_R (v n : q4) : Reflect4 v n = lin4 (2 * dotp4 v n) n (-1) v.
Proof. unfold Reflect4. rewrite sub4_R, smul4_R, ProjectToNorm4_R. rsimpl. e4; ring. Qed.
Theorem C106_reflect (v n : q4) : unit4 n -> let r := Reflect4 v n in
  nrm4 r = nrm4 v /\ dotp4 r n = dotp4 v n /\ lin4 1 r (- dotp4 v n) n = sc4 (-1) (lin4 1 v (- dotp4 v n) n) /\ Reflect4 r n = v.
Proof.
  intros U r. unfold r. rewrite !Reflect4_R. unfold unit4 in U.
  assert (D : dotp4 (lin4 (2 * dotp4 v n) n (-1) v) n = dotp4 v n) by (rewrite dotp4_lin_l, U; ring).
  split; [|split; [exact D|split]].
  - unfold nrm4. f_equal. rewrite dotp4_lin_l, !dotp4_lin_r, U, (dotp4_comm n v). ring.
  - apply v4_ext; unfold lin4, sc4; cbn [w0 w1 w2 w3]; ring.
  - rewrite D. apply v4_ext; unfold lin4; cbn [w0 w1 w2 w3]; ring.
Qed.
Print Assumptions C106_reflect.
Theorem C106_reflect3 (v : q4) (n : pt) : Reflect34 v n = x34 (Reflect (part3 v) n) (w3 v).
Proof. unfold Reflect34, ProjectToNorm34, Reflect, ProjectToNorm. change (xyz4 v) with (part3 v). apply v4_ext; cbn; rsimpl; try reflexivity; ring. Qed.
Print Assumptions C106_reflect3.
(** Refraction gets the tangential part of Snell's law right, and reflects when no refraction is possible... *)
Theorem C106_refract_tangential (v n : q4) (i1 i2 : R) : unit4 v -> unit4 n -> i2 <> 0 ->
  let k := i1 / i2 in let r := Refract4 v n i1 i2 in let tangential w := lin4 1 w (- dotp4 w n) n in
  (Rabs k * nrm4 (tangential v) <= 1 -> tangential r = sc4 k (tangential v)) /\
  (1 < Rabs k * nrm4 (tangential v) -> unit4 r /\ tangential r = tangential v /\ dotp4 r n = - dotp4 v n).
Proof.
  intros Uv Un Hi k r tg. unfold unit4 in *.
  assert (T : nrm4 (tg v) * nrm4 (tg v) = 1 - dotp4 v n * dotp4 v n).
  { rewrite nrm4_sq. unfold tg. rewrite dotp4_lin_l, !dotp4_lin_r, (dotp4_comm n v), Uv, Un. ring. }
  pose proof (nrm4_pos (tg v)) as P.
  assert (Pm : 0 <= Rabs k * nrm4 (tg v)) by (apply Rmult_le_pos; [apply Rabs_pos|exact P]).
  assert (Q : k * k * (1 - dotp4 v n * dotp4 v n) = (Rabs k * nrm4 (tg v)) * (Rabs k * nrm4 (tg v))).
  { rewrite <- T. replace (Rabs k * nrm4 (tg v) * (Rabs k * nrm4 (tg v))) with ((Rabs k * Rabs k) * (nrm4 (tg v) * nrm4 (tg v))) by ring.
    rewrite <- Rabs_mult, (Rabs_pos_eq (k * k)) by nra. ring. }
  unfold r, Refract4. cbv zeta. change (dot4 v n) with (dotp4 v n). rewrite Reflect4_R, neg4_R, sub4_R. repeat change (smul4 ?s ?a) with (sc4 s a). rsimpl. fold k.
  destruct (Rltb_spec 1 (k * k * (1 - dotp4 v n * dotp4 v n))) as [L|L]; split; intros H; rewrite Q in L.
  - exfalso. revert L H Pm. generalize (Rabs k * nrm4 (tg v)). intros m L H Pm. clear - L H Pm. nra.
  - rewrite dotp4_sc_l.
    assert (D : dotp4 (lin4 (2 * (-1 * dotp4 v n)) n (-1) (sc4 (-1) v)) n = - dotp4 v n) by (rewrite dotp4_lin_l, dotp4_sc_l, Un; ring).
    split; [|split; [|exact D]].
    + rewrite dotp4_lin_l, !dotp4_lin_r, !dotp4_sc_l, !dotp4_sc_r, (dotp4_comm n v), Uv, Un. ring.
    + unfold tg. rewrite D. apply v4_ext; unfold lin4, sc4; cbn [w0 w1 w2 w3]; ring.
  - unfold tg. rewrite dotp4_lin_l, !dotp4_sc_l, Un. apply v4_ext; unfold lin4, sc4; cbn [w0 w1 w2 w3]; ring.
  - exfalso. revert L H Pm. generalize (Rabs k * nrm4 (tg v)). intros m L H Pm. clear - L H Pm. nra.
Qed.
Print Assumptions C106_refract_tangential.
(** ...but not the normal part: with equal indices a ray along the normal comes out three times as long. *)
Theorem C106_refract_refuted : exists v n : q4, unit4 v /\ unit4 n /\ w3 v = 0 /\ w3 n = 0 /\ dotp4 v n < 0 /\ Refract4 v n 1 1 = sc4 3 v.
Proof.
  exists (X4 0 0 (-1) 0), (X4 0 0 1 0). unfold unit4. split; [u4; ring|]. split; [u4; ring|]. split; [reflexivity|]. split; [reflexivity|]. split; [u4; lra|].
  unfold Refract4. cbv zeta. rewrite dot4_R, sub4_R. repeat change (smul4 ?s ?a) with (sc4 s a). rsimpl. replace (dotp4 (X4 0 0 (-1) 0) (X4 0 0 1 0)) with (-1) by (u4; ring).
  replace (1/1*(1/1)*(1 - -1 * -1)) with 0 by field. rewrite (proj2 (Rltb_false _ _)) by lra. rewrite Rminus_0_r, sqrt_1. apply v4_ext; u4; field.
Qed.
Print Assumptions C106_refract_refuted.

(** * Orthonormalisation *)
(** Two vectors: both results are unit; if the second is not (nearly) parallel to the first they are orthogonal, the first keeps its
    direction and the second is a positive multiple of the second input plus a multiple of the first. *)
Theorem C106_orthonormalize2 (a b : q4) : 1/1000 < nrm4 a -> let (a', b') := Orthonormalize42 a b in
  let res := lin4 1 b (- dotp4 b a') a' in
  unit4 a' /\ unit4 b' /\ sc4 (nrm4 a) a' = a /\ dotp4 res a' = 0 /\
  (1/1000 < nrm4 res -> dotp4 a' b' = 0 /\ sc4 (nrm4 res) b' = res).
Proof.
  intros A. unfold Orthonormalize42. cbv zeta. rewrite (Normalize4_R a), (proj2 (Rltb_true _ _)) by exact A. cbn [fst]. assert (U := sc4_unit a ltac:(lra)).
  assert (S : sc4 (nrm4 a) (sc4 (/ nrm4 a) a) = a) by (apply v4_ext; unfold sc4; cbn [w0 w1 w2 w3]; field; lra).
  set (a' := sc4 (/ nrm4 a) a) in *. clearbody a'. rewrite sub4_R, ProjectToNorm4_R.
  replace (lin4 1 b (-1) (sc4 (dotp4 b a') a')) with (lin4 1 b (- dotp4 b a') a') by (apply v4_ext; unfold lin4, sc4; cbn [w0 w1 w2 w3]; ring).
  assert (O : dotp4 (lin4 1 b (- dotp4 b a') a') a' = 0) by (rewrite dotp4_lin_l; unfold unit4 in U; rewrite U; ring). set (res := lin4 1 b (- dotp4 b a') a') in *. clearbody res.
  split; [exact U|]. split; [apply Normalize4_unit|]. split; [exact S|]. split; [exact O|].
  intros L. rewrite Normalize4_R, (proj2 (Rltb_true _ _)) by exact L. cbn [fst]. rewrite dotp4_sc_r, (dotp4_comm a' res), O. split; [ring|]. apply v4_ext; unfold sc4; cbn [w0 w1 w2 w3]; field; lra.
Qed.
Print Assumptions C106_orthonormalize2.
Theorem C106_orthonormalize3 (a b c : q4) : 1/1000 < nrm4 a -> let '(a', b', c') := Orthonormalize43 a b c in
  let rb := lin4 1 b (- dotp4 b a') a' in let rc := lin4 1 (lin4 1 c (- dotp4 c a') a') (- dotp4 c b') b' in
  (a', b') = Orthonormalize42 a b /\ unit4 c' /\
  (1/1000 < nrm4 rb -> dotp4 rc a' = 0 /\ dotp4 rc b' = 0 /\ (1/1000 < nrm4 rc -> dotp4 a' c' = 0 /\ dotp4 b' c' = 0 /\ sc4 (nrm4 rc) c' = rc)).
Proof.
  intros A. pose proof (C106_orthonormalize2 a b A) as H. unfold Orthonormalize43. unfold Orthonormalize42 in H |- *. cbv zeta in H |- *.
  set (a' := fst (Normalize4 a)) in *. set (b' := fst (Normalize4 (sub4 b (ProjectToNorm4 b a')))) in *. clearbody a' b'. destruct H as (Ua & Ub & Sa & Ob & H).
  split; [reflexivity|]. split; [apply Normalize4_unit|]. intros L. destruct (H L) as [Oab Sb]. clear H. unfold unit4 in *.
  rewrite !sub4_R, !ProjectToNorm4_R.
  assert (E : lin4 1 (lin4 1 c (-1) (sc4 (dotp4 c a') a')) (-1) (sc4 (dotp4 (lin4 1 c (-1) (sc4 (dotp4 c a') a')) b') b') = lin4 1 (lin4 1 c (- dotp4 c a') a') (- dotp4 c b') b').
  { rewrite dotp4_lin_l, dotp4_sc_l, Oab. apply v4_ext; unfold lin4, sc4; cbn [w0 w1 w2 w3]; ring. }
  rewrite E. clear E.
  assert (Oa : dotp4 (lin4 1 (lin4 1 c (- dotp4 c a') a') (- dotp4 c b') b') a' = 0) by (rewrite !dotp4_lin_l, Ua, (dotp4_comm b' a'), Oab; ring).
  assert (Obb : dotp4 (lin4 1 (lin4 1 c (- dotp4 c a') a') (- dotp4 c b') b') b' = 0) by (rewrite !dotp4_lin_l, Ub, Oab; ring).
  set (rc := lin4 1 (lin4 1 c (- dotp4 c a') a') (- dotp4 c b') b') in *. clearbody rc. split; [exact Oa|]. split; [exact Obb|].
  intros L2. rewrite Normalize4_R, (proj2 (Rltb_true _ _)) by exact L2. cbn [fst]. rewrite !dotp4_sc_r, (dotp4_comm a' rc), (dotp4_comm b' rc), Oa, Obb. split; [ring|]. split; [ring|].
  apply v4_ext; unfold sc4; cbn [w0 w1 w2 w3]; field; lra.
Qed.
Print Assumptions C106_orthonormalize3.
(** The orthogonality tests, by what they compare: AreOrthogonal and AreOrthonormal hand [epsilon] on as a squared tolerance for the
    angle, and AreOrthonormal its square as the tolerance for the squared lengths. *)
Theorem C106_are_orthonormal (a b c : q4) (eps : R) : 0 <= eps ->
  let perp x y := dotp4 x y * dotp4 x y <= eps * (dotp4 x x * dotp4 y y) in let unit_ x := Rabs (dotp4 x x - 1) <= eps * eps in
  (AreOrthogonal42 a b eps = true <-> perp a b) /\ (AreOrthogonal43 a b c eps = true <-> perp a b /\ perp a c /\ perp b c) /\
  (AreOrthonormal42 a b eps = true <-> perp a b /\ unit_ a /\ unit_ b) /\
  (AreOrthonormal43 a b c eps = true <-> perp a b /\ perp a c /\ perp b c /\ unit_ a /\ unit_ b /\ unit_ c).
Proof.
  intros P perp unit_. assert (Pe : forall x y, IsPerpendicular4 x y eps = true <-> perp x y).
  { intros x y. unfold IsPerpendicular4, perp. rewrite !LengthSq4_R, dot4_R. cbv zeta. rsimpl. rewrite Rleb_true, Rmult_assoc. tauto. }
  assert (Un : forall x, IsNormalized4 x (eps * eps) = true <-> unit_ x).
  { intros x. unfold IsNormalized4, unit_. rewrite LengthSq4_R, Abs_R. rsimpl. now rewrite Rleb_true. }
  unfold AreOrthogonal42, AreOrthogonal43, AreOrthonormal42, AreOrthonormal43. rsimpl. rewrite !andb_true_iff, !Pe. rewrite !Un. tauto.
Qed.
Print Assumptions C106_are_orthonormal.
Theorem C106_lerp (a b : q4) (t : R) : Lerp4 a b 0 = a /\ Lerp4 a b 1 = b /\ dst4 a (Lerp4 a b t) = Rabs t * dst4 a b /\ dst4 (Lerp4 a b t) b = Rabs (1 - t) * dst4 a b.
Proof.
  assert (E : forall s, Lerp4 a b s = lin4 (1 - s) a s b) by (intros s; unfold Lerp4, add4, smul4; apply v4_ext; u4; rsimpl; ring). rewrite !E.
  split; [apply v4_ext; u4; ring|]. split; [apply v4_ext; u4; ring|]. unfold dst4. rewrite <- !nrm4_sc. split; f_equal; apply v4_ext; u4; ring.
Qed.
Print Assumptions C106_lerp.
Theorem C106_collinear (a b c : q4) (eps : R) : AreCollinear4 a b c eps = true <->
  let u := minus (part3 b) (part3 a) in let v := minus (part3 c) (part3 a) in dot (cross u v) (cross u v) <= eps.
Proof.
  unfold AreCollinear4. rewrite LengthSq4_R, dotp4_part. destruct (Cross3_part (sub4 b a) (sub4 c a)) as [-> ->]. cbv zeta. rewrite Rmult_0_l, Rplus_0_r. apply Rleb_true.
Qed.
Print Assumptions C106_collinear.

(** * Angles and spherical coordinates *)
Lemma angleOf_R (c : R) : -1 <= c <= 1 -> 0 <= angleOf c <= PI /\ cos (angleOf c) = c.
Proof. exact (acosClamped_R c). Qed.
Theorem C106_angle (a b : q4) : a <> X4 0 0 0 0 -> b <> X4 0 0 0 0 -> angle4 a b (AngleBetween4 a b).
Proof.
  assert (NZ : forall x : q4, x <> X4 0 0 0 0 -> 0 < nrm4 x).
  { intros x N. destruct (nrm4_pos x) as [|E]; [assumption|]. exfalso. apply N. assert (Z : dotp4 x x = 0) by (rewrite <- nrm4_sq, <- E; ring). clear - Z. destruct x as [p q r s]. u4. f_equal; nra. }
  intros A B. apply NZ in A. apply NZ in B. unfold AngleBetween4. change (LengthSq4 a) with (dotp4 a a). change (LengthSq4 b) with (dotp4 b b). change (dot4 a b) with (dotp4 a b). rsimpl.
  assert (S : sqrt (dotp4 a a * dotp4 b b) = nrm4 a * nrm4 b) by (apply sqrt_mult; apply dotp4_pos). rewrite S.
  assert (P : 0 < nrm4 a * nrm4 b) by nra. pose proof (dotp4_cauchy a b) as C. rewrite <- (nrm4_sq a), <- (nrm4_sq b) in C.
  assert (Bd : -1 <= dotp4 a b / (nrm4 a * nrm4 b) <= 1).
  { revert C P. replace (nrm4 a * nrm4 a * (nrm4 b * nrm4 b)) with ((nrm4 a * nrm4 b) * (nrm4 a * nrm4 b)) by ring. generalize (nrm4 a * nrm4 b) (dotp4 a b). clear. intros m d C P.
    assert (- m <= d <= m) by nra. split; [apply Rmult_le_reg_r with m; [exact P|]; unfold Rdiv; rewrite Rmult_assoc, Rinv_l by lra; lra|apply Rmult_le_reg_r with m; [exact P|]; unfold Rdiv; rewrite Rmult_assoc, Rinv_l by lra; lra]. }
  destruct (angleOf_R _ Bd) as [R1 R2]. split; [exact R1|]. rewrite R2. field. lra.
Qed.
Print Assumptions C106_angle.
Theorem C106_angle3 (a b : q4) : part3 a <> origin -> part3 b <> origin -> angle_between (part3 a) (part3 b) (AngleBetween34 a b).
Proof. intros A B. exact (AngleBetween_correct (part3 a) (part3 b) A B). Qed.
Print Assumptions C106_angle3.
Theorem C106_angle_norm (a b : q4) : (unit4 a -> unit4 b -> angle4 a b (AngleBetweenNorm4 a b)) /\
  (unitv (part3 a) -> unitv (part3 b) -> angle_between (part3 a) (part3 b) (AngleBetweenNorm34 a b)).
Proof.
  split; intros A B.
  - unfold AngleBetweenNorm4. rewrite dot4_R. trig. pose proof (dotp4_cauchy a b) as C. unfold unit4 in A, B. rewrite A, B in C. split; [apply acos_bound|].
    rewrite cos_acos by nra. rewrite (proj1 (unit_nrm4 a) A), (proj1 (unit_nrm4 b) B). ring.
  - unfold AngleBetweenNorm34. change (Dot3 a b) with (dot (part3 a) (part3 b)). trig. split; [apply acos_bound|]. rewrite cos_acos by (apply RotProofs2.dot_bound; assumption).
    rewrite (proj1 (unit_norm _) A), (proj1 (unit_norm _) B). ring.
Qed.
Print Assumptions C106_angle_norm.
(** Spherical coordinates of a direction vector (w = 0): there and back, both ways. *)
Theorem C106_spherical (v : q4) : w3 v = 0 -> 1/1000 < nrm4 v -> let s := ToSpherical4 v in
  FromSpherical4 (vx s) (vy s) (vz s) = v /\ - PI < vx s <= PI /\ -(PI/2) <= vy s <= PI/2 /\ vz s = nrm4 v.
Proof.
  intros W N. assert (NN : nrm4 v = norm (part3 v)) by (unfold nrm4, norm; rewrite dotp4_part, W; f_equal; ring).
  assert (E : ToSpherical4 v = ToSpherical (part3 v)).
  { rewrite ToSpherical_R by lra. unfold ToSpherical4. rewrite Normalize4_R, (proj2 (Rltb_true _ _)) by exact N. rsimpl. rewrite (proj2 (Rleb_false _ _)) by lra. trig. rewrite NN. reflexivity. }
  cbv zeta. rewrite E, NN. destruct (spherical_there (part3 v) ltac:(lra)) as (B & R1 & R2 & R3). split; [|easy].
  assert (F : forall az inc r, FromSpherical4 az inc r = hdir (FromSpherical az inc r)) by reflexivity. rewrite F, B. unfold hdir, part3. destruct v; cbn in *. now rewrite W.
Qed.
Print Assumptions C106_spherical.
Theorem C106_spherical_back (az inc r : R) : - PI < az <= PI -> -(PI/2) < inc < PI/2 -> 1/1000 < r -> ToSpherical4 (FromSpherical4 az inc r) = V3 az inc r /\
  ToSphericalNormalized4 (FromSphericalUnit4 az inc) = V2 az inc /\ FromSphericalUnit4 az inc = FromSpherical4 az inc 1.
Proof.
  intros A I P. assert (F : FromSpherical4 az inc r = hdir (FromSpherical az inc r)) by reflexivity. set (v := FromSpherical4 az inc r) in *.
  assert (N : nrm4 v = r). { rewrite <- (spherical_norm az inc r) by lra. unfold nrm4, norm. rewrite F, dotp4_part. cbn [w3 hdir]. rewrite part3_hdir. f_equal. ring. }
  assert (C : 0 < cos inc) by (apply cos_gt_0; lra). split; [|split].
  - rewrite <- (spherical_back az inc r) by (try assumption; lra). rewrite ToSpherical_R by (rewrite spherical_norm; lra). rewrite spherical_norm by lra.
    unfold ToSpherical4. rewrite Normalize4_R, N, (proj2 (Rltb_true _ _)) by exact P. rsimpl. rewrite (proj2 (Rleb_false _ _)) by lra. trig. rewrite F. reflexivity.
  - unfold ToSphericalNormalized4, FromSphericalUnit4. cbn [w0 w1 w2]. rsimpl. trig. rewrite Ropp_involutive, Ratan2_unique by lra. rewrite asin_sin by lra. reflexivity.
  - unfold FromSphericalUnit4, FromSpherical4. cbv zeta. rsimpl. trig. f_equal; ring.
Qed.
Print Assumptions C106_spherical_back.
Example C106_direction_witness : w3 (X4 0 3 4 0) = 0 /\ 1/1000 < nrm4 (X4 0 3 4 0) /\ 1/1000 < norm (cross (part3 (X4 0 3 4 0)) (part3 (X4 0 1 0 0))) /\ unit4 (X4 0 (3/5) (4/5) 0).
Proof.
  split; [reflexivity|]. assert (N : forall x, 0 <= x -> forall y, y = x * x -> sqrt y = x) by (intros x X y ->; now apply sqrt_square).
  split; [unfold nrm4; rewrite (N 5) by (u4; lra); lra|]. split; [unfold norm; rewrite (N 4) by (unfold cross, dot; u4; lra); lra|unfold unit4; u4; lra].
Qed.

(** * Sums and componentwise functions *)
Theorem C106_outer (a b x : q4) : apply4 (OuterProduct4 a b) x = sc4 (dotp4 b x) a.
Proof. unfold apply4, OuterProduct4, smul4. rsimpl. apply v4_ext; u4; cbn [r40 r41 r42 r43 w0 w1 w2 w3]; ring. Qed.
Print Assumptions C106_outer.
Theorem C106_sums (v : q4) : SumOfElements4 v = dotp4 v (X4 1 1 1 1) /\ ProductOfElements4 v = (w0 v * w1 v) * (w2 v * w3 v) /\ 4 * AverageOfElements4 v = SumOfElements4 v.
Proof. unfold AverageOfElements4, ProductOfElements4, SumOfElements4. rsimpl. u4. split; [ring|]. split; [ring|]. lra. Qed.
Print Assumptions C106_sums.
(** Componentwise: add, sub, multiply, divide, negate, absolute value, and the scalar forms. *)
Theorem C106_componentwise (a b : q4) (s : R) (i : nat) :
  comp4 (add4 a b) i = comp4 a i + comp4 b i /\ comp4 (sub4 a b) i = comp4 a i - comp4 b i /\ comp4 (neg4 a) i = - comp4 a i /\
  comp4 (mul4s a s) i = s * comp4 a i /\ comp4 (smul4 s a) i = s * comp4 a i /\ comp4 (Mul4 a b) i = comp4 a i * comp4 b i /\ comp4 (Div4 a b) i = comp4 a i / comp4 b i /\
  comp4 (AddS4 a s) i = comp4 a i + s /\ comp4 (SubS4 a s) i = comp4 a i - s /\ comp4 (SubLeft4 a s) i = s - comp4 a i /\ comp4 (DivLeft4 a s) i = s / comp4 a i /\
  comp4 (Abs4 a) i = Rabs (comp4 a i) /\ comp4 (Min4s a s) i = Rmin (comp4 a i) s /\ comp4 (Max4s a s) i = Rmax (comp4 a i) s /\
  (s <= 1 -> comp4 (Clamp4s a s 1) i = Rmax s (Rmin (comp4 a i) 1)) /\
  part3 (Neg3 a) = scale (-1) (part3 a) /\ w3 (Neg3 a) = w3 a /\ part3 (Scale3 a s) = scale s (part3 a) /\ w3 (Scale3 a s) = w3 a.
Proof.
  assert (Cl : forall x, s <= 1 -> Clamp x s 1 = Rmax s (Rmin x 1)).
  { intros x L. unfold Clamp, Rmax, Rmin. rsimpl. destruct (Rle_dec x 1); destruct (Rle_dec s x) as [S|S]; destruct (Rle_dec s 1); repeat (rcase; try lra). }
  split; [|split; [|split; [|split; [|split; [|split; [|split; [|split; [|split; [|split; [|split; [|split; [|split; [|split; [|split; [|split; [|split; [|split]]]]]]]]]]]]]]]]];
    try reflexivity; try (destruct i as [|[|[|i]]]; cbn; rsimpl; ring).
  - destruct i as [|[|[|i]]]; apply Abs_R.
  - destruct i as [|[|[|i]]]; apply Min_R.
  - destruct i as [|[|[|i]]]; apply Max_R.
  - intros L. destruct i as [|[|[|i]]]; apply Cl, L.
  - apply vec_ext; cbn; rsimpl; ring.
  - apply vec_ext; cbn; rsimpl; ring.
Qed.
Print Assumptions C106_componentwise.
