(** C78: spheres through points and smallest enclosing spheres. *)
From Coq Require Import Reals Lra Psatz Bool List.
From Verif Require Import Num NumR ScalarModel ScalarProofs Vec3Model GeoTypes GeoSpec GeoLemmas AabbModel AabbSpec LineModel LineSpec
  LineProofs LineProps MatModel MatSpec MatProofs MatProofs2 RotModel PlaneModel PlaneSpec PlaneProps Vec3Props MatProps GMatProofs SphereModel SphereSpec SphereProps.
Import ListNotations.
Open Scope R_scope.

Definition encloses (s : sphere R) (pts : list pt) : Prop := forall p, In p pts -> in_sphere s p.
(** [s] is at most [e] larger than any sphere containing the points. *)
Definition least_up_to (e : R) (s : sphere R) (pts : list pt) : Prop := forall c r, (forall p, In p pts -> dist c p <= r) -> srad s <= r + e.

Lemma fit_eq (x v : pt) : dot x v = dot v v / 2 -> dot (minus x v) (minus x v) = dot x x.
Proof. intros H. replace (dot (minus x v) (minus x v)) with (dot x x - 2 * dot x v + dot v v) by (gunf; ring). rewrite H. lra. Qed.
Lemma fit_dist (a b x : pt) : dot x (minus b a) = dot (minus b a) (minus b a) / 2 -> dist (plus a x) b = norm x.
Proof.
  intros H. unfold dist, norm. f_equal. rewrite <- (fit_eq x _ H). f_equal; unfold minus, plus; cbn [vx vy vz]; apply vec_ext; cbn [vx vy vz]; ring.
Qed.
Lemma dist_self (a x : pt) : dist (plus a x) a = norm x.
Proof. unfold dist. f_equal. unfold minus, plus; cbn [vx vy vz]; apply vec_ext; cbn [vx vy vz]; ring. Qed.

(** Three points: what the coordinates mean. *)
Lemma lagrange (v w : pt) : dot (Cross v w) (Cross v w) = dot v v * dot w w - dot v w * dot v w.
Proof. unfold Cross. rsimpl. unfold dot. cbn [vx vy vz]. ring. Qed.
Lemma Fit3_R (v w : pt) : let D := dot v v * dot w w - dot v w * dot v w in
  (D < 5 / 1000 -> FitSphere3 v w = None) /\
  (5 / 1000 <= D -> FitSphere3 v w = Some (dot w w * (dot v v - dot v w) / (2 * D), dot v v * (dot w w - dot v w) / (2 * D))).
Proof.
  intros D. unfold FitSphere3. cbv zeta.
  assert (D0 : 0 <= D) by (unfold D; rewrite <- lagrange; apply dot_pos).
  match goal with |- context [EqualAbs ?d ?z ?e] => change d with D; replace (EqualAbs D z e) with (Rltb D (5 / 1000)) end.
  - change (@Dot R Num_R) with dot. rsimpl. split; intros H; [now rewrite (proj2 (Rltb_true _ _))|]. rewrite (proj2 (Rltb_false _ _)) by lra.
    fold D. f_equal. f_equal; unfold nhalf; rnum; field; lra.
  - symmetry. unfold EqualAbs. rewrite Abs_R. rsimpl. rewrite Rminus_0_r, Rabs_pos_eq by exact D0. reflexivity.
Qed.
Lemma Fit3_sound (v w : pt) s t : FitSphere3 v w = Some (s, t) -> let x := plus (scale s v) (scale t w) in dot x v = dot v v / 2 /\ dot x w = dot w w / 2.
Proof.
  intros F. destruct (Fit3_R v w) as [A B]. cbv zeta in A, B. set (D := dot v v * dot w w - dot v w * dot v w) in *.
  destruct (Rlt_le_dec D (5 / 1000)) as [L|L]; [rewrite (A L) in F; discriminate F|]. rewrite (B L) in F. injection F. intros T S. cbv zeta. rewrite !dot_plus_l, !dot_scale_l. subst s t.
  rewrite (dot_comm w v). assert (N : D <> 0) by lra. unfold D in *. split; field; exact N.
Qed.
Theorem C78_fit3 (a b c : pt) : let n := Cross (minus b a) (minus c a) in
  (dot n n < 5 / 1000 -> Sphere_Fit3 a b c = None) /\
  (5 / 1000 <= dot n n -> exists s, Sphere_Fit3 a b c = Some s /\
    dist (spos s) a = srad s /\ dist (spos s) b = srad s /\ dist (spos s) c = srad s /\
    orth (minus (spos s) a) n /\ forall q r, dist q a = r -> dist q b = r -> dist q c = r -> srad s <= r).
Proof.
  intros n. unfold n. rewrite lagrange. set (v := minus b a). set (w := minus c a). destruct (Fit3_R v w) as [A B]. cbv zeta in A, B. unfold Sphere_Fit3. cbv zeta.
  change (@vsub R Num_R) with minus. fold v w. split; intros H; [now rewrite (A H)|].
  pose proof (B H) as F. rewrite F. match type of F with _ = Some (?x, ?y) => set (s := x) in *; set (t := y) in * end. destruct (Fit3_sound v w s t F) as [X1 X2].
  change (vadd (smulv s v) (smulv t w)) with (plus (scale s v) (scale t w)). set (x := plus (scale s v) (scale t w)) in *. eexists. split; [reflexivity|]. cbn [spos srad]. change (vadd a x) with (plus a x). change (Length x) with (norm x).
  split; [apply dist_self|]. split; [now apply fit_dist|]. split; [now apply fit_dist|]. split.
  - unfold orth. replace (minus (plus a x) a) with x by (unfold minus, plus; cbn [vx vy vz]; apply vec_ext; cbn [vx vy vz]; ring). unfold x. clearbody v w s t. unfold plus, scale, Cross, dot. rsimpl. cbn [vx vy vz]. ring.
  - intros q r Qa Qb Qc. set (y := minus q a). assert (Y : norm y = r) by exact Qa.
    assert (E : forall p, dist q p = r -> dot y (minus p a) = dot (minus p a) (minus p a) / 2).
    { intros p P. assert (dot (minus y (minus p a)) (minus y (minus p a)) = dot y y).
      { replace (minus y (minus p a)) with (minus q p) by (unfold y, minus; cbn [vx vy vz]; apply vec_ext; cbn [vx vy vz]; ring). rewrite <- !norm_sq. rewrite Y. change (norm (minus q p)) with (dist q p). now rewrite P. }
      replace (dot (minus y (minus p a)) (minus y (minus p a))) with (dot y y - 2 * dot y (minus p a) + dot (minus p a) (minus p a)) in H0 by (generalize (minus p a); intros; gunf; ring). lra. }
    pose proof (E b Qb) as E1. pose proof (E c Qc) as E2. fold v in E1. fold w in E2.
    assert (O : dot (minus y x) x = 0). { unfold x at 2. rewrite dot_plus_r, !dot_scale_r, !dot_minus_l, X1, X2, E1, E2. ring. }
    assert (Z : norm y * norm y = norm x * norm x + norm (minus y x) * norm (minus y x)). { rewrite !norm_sq. clearbody x y. revert O. gunf. intros. nra. }
    pose proof (norm_pos x). pose proof (norm_pos y). pose proof (Rle_0_sqr (norm (minus y x))). unfold Rsqr in *. subst r. nra.
Qed.
Print Assumptions C78_fit3.
Example C78_fit3_witness : let n := Cross (minus (V3 2 0 0 : pt) (V3 0 0 0)) (minus (V3 0 2 0) (V3 0 0 0)) in 5 / 1000 <= dot n n.
Proof. unfold Cross, minus. rsimpl. unfold dot. cbn [vx vy vz]. lra. Qed.

(** Four points. *)
Definition gram (u v w : pt) : mat3 R := mk3 (dot u u) (dot u v) (dot u w) (dot u v) (dot v v) (dot v w) (dot u w) (dot v w) (dot w w).
Lemma gram_sym u v w : symmetric3 (gram u v w). Proof. intros x y. unfold apply, gram, mk3, dot. cbn [row0 row1 row2 vx vy vz]. ring. Qed.
Lemma gram_det u v w : Determinant (gram u v w) = volume u v w * volume u v w.
Proof. unfold Determinant, gram, volume, mk3. cbn [row0 row1 row2 vx vy vz]. rsimpl. unfold dot. cbn [vx vy vz]. ring. Qed.
Lemma Fit4_none u v w : volume u v w * volume u v w < 1 / 1000 -> FitSphere4 u v w = None.
Proof.
  intros H. unfold FitSphere4. change (@Dot R Num_R) with dot. cbv zeta. fold (gram u v w). destruct (C30_InverseSymmetric (gram u v w) (gram u v w) (gram_sym u v w)) as [_ I].
  destruct (InverseSymmetric (gram u v w)) as [[|] m]; [|reflexivity]. destruct I as [I _]. specialize (I eq_refl). rewrite gram_det, Rabs_pos_eq in I by apply Rle_0_sqr. lra.
Qed.
Lemma Fit4_some u v w : 1 / 1000 <= volume u v w * volume u v w -> exists s t k, FitSphere4 u v w = Some (s, t, k) /\
  let x := plus (plus (scale s u) (scale t v)) (scale k w) in dot x u = dot u u / 2 /\ dot x v = dot v v / 2 /\ dot x w = dot w w / 2.
Proof.
  intros H. unfold FitSphere4. change (@Dot R Num_R) with dot. cbv zeta. fold (gram u v w).
  destruct (InverseSymmetric (gram u v w)) as [b m] eqn:E. destruct (C30_InverseSymmetric (gram u v w) m (gram_sym u v w)) as [I1 [_ I2]].
  rewrite E in I1, I2. cbn [fst] in I2. rewrite gram_det, Rabs_pos_eq in I2 by apply Rle_0_sqr. rewrite (I2 H) in *. cbn [negb]. specialize (I1 eq_refl). clear E I2.
  do 3 eexists. split; [reflexivity|]. set (h := V3 _ _ _). destruct (I1 h) as [J _]. change (mulv m h) with (apply m h). set (z := apply m h) in *. clearbody z.
  unfold h, apply, gram, mk3 in J. cbn [row0 row1 row2] in J. injection J. unfold nhalf. rnum. intros J3 J2 J1. cbv zeta. rewrite !dot_plus_l, !dot_scale_l.
  unfold dot at 1 in J1. unfold dot at 1 in J2. unfold dot at 1 in J3. cbn [vx vy vz] in J1, J2, J3. rewrite (dot_comm v u), (dot_comm w u), (dot_comm w v). lra.
Qed.
Lemma cramer (u v w x : pt) : scale (volume u v w) x = plus (plus (scale (dot x u) (Cross v w)) (scale (dot x v) (Cross w u))) (scale (dot x w) (Cross u v)).
Proof. unfold volume, plus, scale, Cross, dot. rsimpl. cbn [vx vy vz]. apply vec_ext; cbn [vx vy vz]; ring. Qed.
Theorem C78_fit4 (a b c d : pt) : let V := volume (minus b a) (minus c a) (minus d a) in
  (V * V < 1 / 1000 -> Sphere_Fit4 a b c d = None) /\
  (1 / 1000 <= V * V -> exists s, Sphere_Fit4 a b c d = Some s /\
    (forall p, In p [a; b; c; d] -> dist (spos s) p = srad s) /\
    forall q r, (forall p, In p [a; b; c; d] -> dist q p = r) -> q = spos s /\ r = srad s).
Proof.
  intros V. unfold V. set (u := minus b a). set (v := minus c a). set (w := minus d a). unfold Sphere_Fit4. cbv zeta. change (@vsub R Num_R) with minus. fold u v w.
  split; intros H; [now rewrite (Fit4_none u v w H)|]. destruct (Fit4_some u v w H) as (s & t & k & F & X1 & X2 & X3). rewrite F.
  change (vadd (vadd (smulv s u) (smulv t v)) (smulv k w)) with (plus (plus (scale s u) (scale t v)) (scale k w)). set (x := plus (plus (scale s u) (scale t v)) (scale k w)) in *. cbv zeta in X1, X2, X3.
  eexists. split; [reflexivity|]. cbn [spos srad]. change (vadd a x) with (plus a x). change (Length x) with (norm x).
  assert (P : forall p, In p [a; b; c; d] -> dist (plus a x) p = norm x). { intros p [<-|[<-|[<-|[<-|[]]]]]; [apply dist_self| | |]; now apply fit_dist. }
  split; [exact P|]. intros q r Q.
  assert (Z : q = plus a x).
  { set (y := minus q a). assert (Y : norm y = r) by (apply (Q a); now left).
    assert (E : forall p, dist q p = r -> dot y (minus p a) = dot (minus p a) (minus p a) / 2).
    { intros p P'. assert (H0 : dot (minus y (minus p a)) (minus y (minus p a)) = dot y y).
      { replace (minus y (minus p a)) with (minus q p) by (unfold y, minus; cbn [vx vy vz]; apply vec_ext; cbn [vx vy vz]; ring). rewrite <- !norm_sq. rewrite Y. change (norm (minus q p)) with (dist q p). now rewrite P'. }
      replace (dot (minus y (minus p a)) (minus y (minus p a))) with (dot y y - 2 * dot y (minus p a) + dot (minus p a) (minus p a)) in H0 by (generalize (minus p a); intros; gunf; ring). lra. }
    pose proof (E b (Q b ltac:(cbn; auto))) as E1. pose proof (E c (Q c ltac:(cbn; auto))) as E2. pose proof (E d (Q d ltac:(cbn; auto))) as E3. fold u in E1. fold v in E2. fold w in E3.
    pose proof (cramer u v w (minus y x)) as C. rewrite !dot_minus_l, X1, X2, X3, E1, E2, E3 in C.
    assert (N : volume u v w <> 0) by (intros N; rewrite N in H; lra).
    assert (D : minus y x = origin).
    { revert C. generalize (minus y x). intros m C. replace m with (scale (/ volume u v w) (scale (volume u v w) m)) by (unfold scale; cbn [vx vy vz]; apply vec_ext; cbn [vx vy vz]; field; exact N).
      rewrite C. generalize (Cross v w), (Cross w u), (Cross u v). intros c1 c2 c3. unfold scale, plus, origin. cbn [vx vy vz]. apply vec_ext; cbn [vx vy vz]; ring. }
    clear - D. clearbody x. unfold y, minus, origin in D. injection D. intros. unfold plus. apply vec_ext; cbn [vx vy vz]; lra. }
  split; [exact Z|]. rewrite <- (P a ltac:(cbn; auto)), <- Z. symmetry. apply Q. cbn; auto.
Qed.
Print Assumptions C78_fit4.
Example C78_fit4_witness : let V := volume (V3 1 0 0) (V3 0 1 0) (V3 0 0 1) in 1 / 1000 <= V * V.
Proof. unfold volume, dot. cbn [vx vy vz]. lra. Qed.

(** A sphere whose centre is a weighted mean of points on its surface is the smallest around them. *)
Lemma hull3_least (p q s c x : pt) R0 r (i j k : R) : 0 <= i -> 0 <= j -> 0 <= k -> i + j + k = 1 -> 
  c = plus (plus (scale i p) (scale j q)) (scale k s) -> dist c p = R0 -> dist c q = R0 -> dist c s = R0 ->
  dist x p <= r -> dist x q <= r -> dist x s <= r -> R0 <= r.
Proof.
  intros I J K S C D1 D2 D3 X1 X2 X3.
  assert (E : i * (dist x p * dist x p) + j * (dist x q * dist x q) + k * (dist x s * dist x s) = (i + j + k) * (R0 * R0) + dist c x * dist c x).
  { rewrite <- D1 at 1. assert (i * (R0 * R0) = i * (dist c p * dist c p)) by now rewrite D1. assert (j * (R0 * R0) = j * (dist c q * dist c q)) by now rewrite D2. assert (k * (R0 * R0) = k * (dist c s * dist c s)) by now rewrite D3.
    replace ((i + j + k) * (dist c p * R0)) with (i * (R0 * R0) + j * (R0 * R0) + k * (R0 * R0)) by (rewrite D1; ring). rewrite H, H0, H1. unfold dist. rewrite !norm_sq. replace i with (1 - j - k) in * by lra. subst c. unfold dot, minus, plus, scale. cbn [vx vy vz]. ring. }
  rewrite S in E. pose proof (dist_pos x p). pose proof (dist_pos x q). pose proof (dist_pos x s). pose proof (Rle_0_sqr (dist c x)). unfold Rsqr in *. assert (0 <= R0) by (rewrite <- D1; apply dist_pos).
  assert (dist x p * dist x p <= r * r) by nra. assert (dist x q * dist x q <= r * r) by nra. assert (dist x s * dist x s <= r * r) by nra.
  assert (R0 * R0 <= r * r). { replace (r * r) with (i * (r * r) + j * (r * r) + k * (r * r)) by (replace i with (1 - j - k) by lra; ring). nra. } nra.
Qed.
Lemma hull4_least (p q s v c x : pt) R0 r (i j k l : R) : 0 <= i -> 0 <= j -> 0 <= k -> 0 <= l -> i + j + k + l = 1 ->
  c = plus (plus (plus (scale i p) (scale j q)) (scale k s)) (scale l v) -> dist c p = R0 -> dist c q = R0 -> dist c s = R0 -> dist c v = R0 ->
  dist x p <= r -> dist x q <= r -> dist x s <= r -> dist x v <= r -> R0 <= r.
Proof.
  intros I J K L S C D1 D2 D3 D4 X1 X2 X3 X4.
  assert (E : i * (dist x p * dist x p) + j * (dist x q * dist x q) + k * (dist x s * dist x s) + l * (dist x v * dist x v) = R0 * R0 + dist c x * dist c x).
  { assert (i * (R0 * R0) = i * (dist c p * dist c p)) by now rewrite D1. assert (j * (R0 * R0) = j * (dist c q * dist c q)) by now rewrite D2. assert (k * (R0 * R0) = k * (dist c s * dist c s)) by now rewrite D3. assert (l * (R0 * R0) = l * (dist c v * dist c v)) by now rewrite D4.
    replace (R0 * R0) with (i * (R0 * R0) + j * (R0 * R0) + k * (R0 * R0) + l * (R0 * R0)) by (replace i with (1 - j - k - l) by lra; ring). rewrite H, H0, H1, H2. unfold dist. rewrite !norm_sq. replace i with (1 - j - k - l) in * by lra. subst c. unfold dot, minus, plus, scale. cbn [vx vy vz]. ring. }
  pose proof (dist_pos x p). pose proof (dist_pos x q). pose proof (dist_pos x s). pose proof (dist_pos x v). pose proof (Rle_0_sqr (dist c x)). unfold Rsqr in *. assert (0 <= R0) by (rewrite <- D1; apply dist_pos).
  assert (dist x p * dist x p <= r * r) by nra. assert (dist x q * dist x q <= r * r) by nra. assert (dist x s * dist x s <= r * r) by nra. assert (dist x v * dist x v <= r * r) by nra.
  assert (R0 * R0 <= r * r). { replace (r * r) with (i * (r * r) + j * (r * r) + k * (r * r) + l * (r * r)) by (replace i with (1 - j - k - l) by lra; ring). nra. } nra.
Qed.
Lemma pair_least (p q x : pt) r : dist x p <= r -> dist x q <= r -> dist p q / 2 <= r.
Proof. intros A B. pose proof (dist_triangle p x q). rewrite (dist_sym p x) in H. lra. Qed.
Lemma mid_dist (p q : pt) : let m := vmuls (vadd p q) nhalf in dist p m = dist p q / 2 /\ dist q m = dist p q / 2.
Proof.
  cbv zeta. rewrite vmuls_R. assert (H : forall v, norm (scale (/2) v) = norm v / 2) by (intros v; rewrite norm_scale, Rabs_pos_eq by lra; lra).
  split; [|rewrite (dist_sym p q)]; unfold dist; rewrite <- H; f_equal; unfold nhalf, vadd; rsimpl; rnum; unfold scale, minus; cbn [vx vy vz]; apply vec_ext; cbn [vx vy vz]; field.
Qed.
Theorem C78_optimal2 (a b : pt) : encloses (Sphere_Optimal2 a b) [a; b] /\ least_up_to (1 / 10000) (Sphere_Optimal2 a b) [a; b].
Proof.
  destruct (mid_dist a b) as [A B]. unfold Sphere_Optimal2, encloses, least_up_to, in_sphere. cbv zeta. cbn [spos srad]. set (m := vmuls _ _) in *.
  change (Length (vsub b m)) with (dist b m). unfold sEpsilon. rewrite nlit_R. rewrite B. rsimpl. split.
  - intros p [<-|[<-|[]]]; rewrite dist_sym; lra.
  - intros c r H. pose proof (pair_least a b c r (H a ltac:(cbn; auto)) (H b ltac:(cbn; auto))). lra.
Qed.
Print Assumptions C78_optimal2.

(** The pieces of the three point case. *)
Definition box3 (a b c : pt) : sphere R :=
  let minPt := vMin (vMin a b) c in let maxPt := vMax (vMax a b) c in
  let pos := vmuls (vadd minPt maxPt) nhalf in Sph pos (Distance pos minPt).
Definition through3 (p q o : pt) : sphere R :=
  let pos := vmuls (vadd p q) nhalf in Sph pos (Max (Distance p q * nhalf) (Distance o pos)).
Definition around3 (a b c x : pt) : sphere R :=
  let pos := plus a x in Sph pos (sqrt (Max3 (DistanceSq pos a) (DistanceSq pos b) (DistanceSq pos c))).
Definition fat (s : sphere R) : sphere R := Sph (spos s) (srad s + 2 / 10000).
Definition far_fit (v w : pt) : Prop := let D := dot v v * dot w w - dot v w * dot v w in
  D < 5 / 1000 \/ 10000 < Rabs (dot w w * (dot v v - dot v w) / (2 * D)) \/ 10000 < Rabs (dot v v * (dot w w - dot v w) / (2 * D)).
Lemma Optimal3_R (a b c : pt) : let v := minus b a in let w := minus c a in let D := dot v v * dot w w - dot v w * dot v w in
  let s := dot w w * (dot v v - dot v w) / (2 * D) in let t := dot v v * (dot w w - dot v w) / (2 * D) in
  (far_fit v w -> Sphere_Optimal3 a b c = fat (box3 a b c)) /\
  (~ far_fit v w -> Sphere_Optimal3 a b c = fat (
     if Rltb s 0 then through3 a c b else if Rltb t 0 then through3 a b c else if Rltb 1 (s + t) then through3 b c a
     else around3 a b c (plus (scale s v) (scale t w)))).
Proof.
  intros v w D s t. unfold Sphere_Optimal3. cbv zeta. change (@vsub R Num_R) with minus. fold v w.
  change (LengthSq (Cross v w)) with (dot (Cross v w) (Cross v w)). rewrite lagrange. fold D.
  assert (FT : forall x, Sph (spos x) (nadd (srad x) (nmul n2 sEpsilon)) = fat x). { intros x. unfold fat, sEpsilon, n2. rewrite !nlit_R. rsimpl. f_equal. lra. }
  match goal with |- (_ -> ?X = _) /\ _ => match X with Sph (spos ?y) _ => change X with (Sph (spos y) (nadd (srad y) (nmul n2 sEpsilon))); set (SP := y) end end.
  rewrite FT.
  assert (COL : (if negb (Rltb D (1 / 10000)) then FitSphere3 v w else None) = if Rltb D (5 / 1000) then None else Some (s, t)).
  { destruct (Fit3_R v w) as [A B]. cbv zeta in A, B. fold D in A, B. fold s t in B.
    destruct (Rltb_spec D (5 / 1000)) as [L|L]; [rewrite (A L); now destruct (Rltb _ _)|]. rewrite (proj2 (Rltb_false D (1 / 10000))) by lra. cbn [negb]. apply B. lra. }
  assert (E : SP = match (if Rltb D (5 / 1000) then None else Some (s, t)) with
      | None => box3 a b c
      | Some (s, t) => if Rltb 10000 (Rabs s) || Rltb 10000 (Rabs t) then box3 a b c else if Rltb s 0 then through3 a c b else if Rltb t 0 then through3 a b c
          else if Rltb 1 (s + t) then through3 b c a else around3 a b c (plus (scale s v) (scale t w)) end).
  { rewrite <- COL. unfold SP. rewrite (nlit_R 1 10000). rsimpl. destruct (if negb (Rltb D (1 / 10000)) then FitSphere3 v w else None) as [[s' t']|]; [|reflexivity].
    rewrite !Abs_R. replace (10000 / 1) with 10000 by field. reflexivity. }
  clearbody SP. subst SP. split; intros H; f_equal.
  - destruct (Rltb_spec D (5 / 1000)) as [L|L]; [reflexivity|]. destruct H as [H|[H|H]]; [fold D in H; lra| |]; fold D in H; fold s in H || fold t in H; rewrite (proj2 (Rltb_true _ _) H); [reflexivity|now rewrite orb_true_r].
  - destruct (Rltb_spec D (5 / 1000)) as [L|L]; [exfalso; apply H; now left|]. destruct (Rltb_spec 10000 (Rabs s)) as [K|K]; [exfalso; apply H; right; now left|]. destruct (Rltb_spec 10000 (Rabs t)) as [M|M]; [exfalso; apply H; right; now right|]. reflexivity.
Qed.
Lemma box3_in a b c p : In p [a; b; c] -> dist (spos (box3 a b c)) p <= srad (box3 a b c).
Proof.
  intros P. unfold box3. cbv zeta. cbn [spos srad]. change (@Distance R Num_R) with dist. set (mn := vMin _ _). set (mx := vMax _ _). set (m := vmuls _ _).
  apply dist_le_sq; [apply dist_pos|]. unfold dist. rewrite !norm_sq.
  assert (M : forall f, (f = vx \/ f = vy \/ f = vz) -> f m = (f mn + f mx) / 2 /\ f mn <= f p <= f mx).
  { intros f F. split; [unfold m, nhalf; destruct F as [F|[F|F]]; subst f; unfold vmuls, vadd; rsimpl; cbn [vx vy vz]; rnum; field|].
    assert (Q : f mn = Rmin (Rmin (f a) (f b)) (f c) /\ f mx = Rmax (Rmax (f a) (f b)) (f c)) by (unfold mn, mx, vMin, vMax; rewrite !Min_R, !Max_R; destruct F as [F|[F|F]]; subst f; cbn [vx vy vz]; auto).
    destruct Q as [-> ->]. pose proof (Rmin_l (Rmin (f a) (f b)) (f c)). pose proof (Rmin_r (Rmin (f a) (f b)) (f c)). pose proof (Rmin_l (f a) (f b)). pose proof (Rmin_r (f a) (f b)).
    pose proof (Rmax_l (Rmax (f a) (f b)) (f c)). pose proof (Rmax_r (Rmax (f a) (f b)) (f c)). pose proof (Rmax_l (f a) (f b)). pose proof (Rmax_r (f a) (f b)).
    destruct P as [<-|[<-|[<-|[]]]]; lra. }
  pose proof (M vx ltac:(auto)) as [X1 X2]. pose proof (M vy ltac:(auto)) as [Y1 Y2]. pose proof (M vz ltac:(auto)) as [Z1 Z2]. clearbody m mn mx. unfold dot, minus. cbn [vx vy vz]. rewrite X1, Y1, Z1.
  assert (G : forall l h q, l <= q <= h -> ((l + h) / 2 - q) * ((l + h) / 2 - q) <= ((l + h) / 2 - l) * ((l + h) / 2 - l)) by (intros; nra).
  pose proof (G _ _ _ X2). pose proof (G _ _ _ Y2). pose proof (G _ _ _ Z2). lra.
Qed.
Lemma through3_in p q o x : In x [p; q; o] -> dist (spos (through3 p q o)) x <= srad (through3 p q o).
Proof.
  intros X. unfold through3. cbv zeta. cbn [spos srad]. change (@Distance R Num_R) with dist. destruct (mid_dist p q) as [A B]. cbv zeta in A, B. set (m := vmuls _ _) in *. rewrite Max_R. unfold nhalf. rnum. rsimpl.
  match goal with |- context [Rmax ?u ?v] => pose proof (Rmax_l u v) as L; pose proof (Rmax_r u v) as M end. rewrite (dist_sym m x). destruct X as [<-|[<-|[<-|[]]]]; lra.
Qed.
Lemma dist_le_sqrt p q x : dist p q * dist p q <= x -> dist p q <= sqrt x.
Proof. intros H. rewrite <- (sqrt_square (dist p q)) by apply dist_pos. now apply sqrt_le_1_alt. Qed.
Lemma around3_in a b c x p : In p [a; b; c] -> dist (spos (around3 a b c x)) p <= srad (around3 a b c x).
Proof.
  intros P. unfold around3. cbv zeta. cbn [spos srad]. set (m := plus a x). apply dist_le_sqrt. unfold Max3. rewrite !Max_R, !sq_dist.
  set (A := dist m a * dist m a). set (B := dist m b * dist m b). set (C := dist m c * dist m c). pose proof (Rmax_l (Rmax A B) C). pose proof (Rmax_r (Rmax A B) C). pose proof (Rmax_l A B). pose proof (Rmax_r A B).
  destruct P as [<-|[<-|[<-|[]]]]; [fold A|fold B|fold C]; lra.
Qed.
Lemma far_fit_dec v w : far_fit v w \/ ~ far_fit v w.
Proof.
  unfold far_fit. set (D := dot v v * dot w w - dot v w * dot v w). cbv zeta. destruct (Rlt_le_dec D (5 / 1000)); [left; now left|].
  destruct (Rlt_le_dec 10000 (Rabs (dot w w * (dot v v - dot v w) / (2 * D)))); [left; right; now left|].
  destruct (Rlt_le_dec 10000 (Rabs (dot v v * (dot w w - dot v w) / (2 * D)))); [left; right; now right|]. right. intros [H|[H|H]]; lra.
Qed.
(** Every point with 2/10000 to spare. *)
Lemma Optimal3_in a b c p : In p [a; b; c] -> dist (spos (Sphere_Optimal3 a b c)) p <= srad (Sphere_Optimal3 a b c) - 2 / 10000.
Proof.
  intros P. destruct (Optimal3_R a b c) as [A B]. cbv zeta in A, B. set (v := minus b a) in *. set (w := minus c a) in *.
  assert (F : forall s, dist (spos s) p <= srad s -> dist (spos (fat s)) p <= srad (fat s) - 2 / 10000) by (intros; unfold fat; cbn; lra).
  destruct (far_fit_dec v w) as [H|H]; [rewrite (A H); now apply F, box3_in|]. rewrite (B H). apply F.
  destruct (Rltb _ 0); [apply through3_in; cbn in *; tauto|]. destruct (Rltb _ 0); [apply through3_in; cbn in *; tauto|]. destruct (Rltb _ _); [apply through3_in; cbn in *; tauto|now apply around3_in].
Qed.
(** Three points: always enclosed; smallest up to 2/10000 unless nearly collinear or the circumcentre is far away. *)
Lemma through_obtuse (p q o : pt) : dot (minus p o) (minus q o) <= 0 -> srad (through3 p q o) = dist p q / 2.
Proof.
  intros H. unfold through3. cbv zeta. cbn [srad]. change (@Distance R Num_R) with dist. rewrite Max_R. set (m := vmuls _ _). unfold nhalf. rnum. rsimpl. rewrite Rmax_left; [lra|].
  assert (E : dist o m * dist o m = dot (minus p o) (minus q o) + (dist p q / 2) * (dist p q / 2)).
  { unfold m. rewrite vmuls_R. replace ((dist p q / 2) * (dist p q / 2)) with (dist p q * dist p q / 4) by lra. unfold dist. rewrite !norm_sq. unfold vadd, nhalf. rsimpl. rnum. unfold dot, minus, scale. cbn [vx vy vz]. field. }
  pose proof (dist_pos o m). pose proof (dist_pos p q). nra.
Qed.
Theorem C78_optimal3 (a b c : pt) : encloses (Sphere_Optimal3 a b c) [a; b; c] /\
  (~ far_fit (minus b a) (minus c a) -> least_up_to (2 / 10000) (Sphere_Optimal3 a b c) [a; b; c]).
Proof.
  split; [intros p P; pose proof (Optimal3_in a b c p P); unfold in_sphere; lra|]. intros NF.
  destruct (Optimal3_R a b c) as [_ B]. cbv zeta in B. rewrite (B NF). clear B. set (v := minus b a) in *. set (w := minus c a) in *.
  assert (HD : 5 / 1000 <= dot v v * dot w w - dot v w * dot v w) by (destruct (Rlt_le_dec (dot v v * dot w w - dot v w * dot v w) (5 / 1000)) as [L|L]; [exfalso; apply NF; now left|exact L]).
  destruct (Fit3_R v w) as [_ F]. specialize (F HD). cbv zeta in F. set (D := dot v v * dot w w - dot v w * dot v w) in *.
  set (s := dot w w * (dot v v - dot v w) / (2 * D)) in *. set (t := dot v v * (dot w w - dot v w) / (2 * D)) in *. destruct (Fit3_sound v w s t F) as [X1 X2].
  assert (S : s * (2 * D) = dot w w * (dot v v - dot v w)) by (unfold s; field; lra). assert (T : t * (2 * D) = dot v v * (dot w w - dot v w)) by (unfold t; field; lra).
  pose proof (dot_pos v) as PV. pose proof (dot_pos w) as PW. intros q r Q. unfold fat. cbn [srad]. enough (G : srad (if Rltb s 0 then through3 a c b else if Rltb t 0 then through3 a b c else if Rltb 1 (s + t) then through3 b c a
     else around3 a b c (plus (scale s v) (scale t w))) <= r) by lra.
  assert (Qa : dist q a <= r) by (apply Q; cbn; auto). assert (Qb : dist q b <= r) by (apply Q; cbn; auto). assert (Qc : dist q c <= r) by (apply Q; cbn; auto).
  destruct (Rltb_spec s 0) as [L|L]; [|destruct (Rltb_spec t 0) as [M|M]; [|destruct (Rltb_spec 1 (s + t)) as [N|N]]].
  - rewrite through_obtuse; [now apply (pair_least a c q)|]. replace (dot (minus a b) (minus c b)) with (dot v v - dot v w) by (unfold v, w; gunf; ring). nra.
  - rewrite through_obtuse; [now apply (pair_least a b q)|]. replace (dot (minus a c) (minus b c)) with (dot w w - dot v w) by (unfold v, w; gunf; ring). nra.
  - rewrite through_obtuse; [now apply (pair_least b c q)|]. change (dot (minus b a) (minus c a)) with (dot v w).
    pose proof (dot_pos (minus v w)) as PM. rewrite !dot_minus_l, !dot_minus_r, (dot_comm w v) in PM.
    assert (dot v w * (2 * dot v w - dot v v - dot w w) > 0). { assert ((s + t) * (2 * D) > 2 * D) by nra. unfold D in *. nra. } nra.
  - set (x := plus (scale s v) (scale t w)) in *. unfold around3. cbv zeta. cbn [srad]. rewrite !sq_dist.
    assert (Da : dist (plus a x) a = norm x) by apply dist_self. assert (Db : dist (plus a x) b = norm x) by now apply fit_dist. assert (Dc : dist (plus a x) c = norm x) by now apply fit_dist.
    rewrite Da, Db, Dc. unfold Max3. rewrite !Max_R, !(Rmax_left (norm x * norm x) (norm x * norm x)) by lra. rewrite sqrt_square by apply norm_pos.
    apply (hull3_least a b c (plus a x) q (norm x) r (1 - s - t) s t); try assumption; try lra.
    unfold x, v, w, plus, scale, minus. cbn [vx vy vz]. apply vec_ext; cbn [vx vy vz]; ring.
Qed.
Print Assumptions C78_optimal3.
Example C78_optimal3_witness : ~ far_fit (minus (V3 2 0 0) (V3 0 0 0)) (minus (V3 1 2 0) (V3 0 0 0)).
Proof.
  unfold far_fit, dot, minus. cbn [vx vy vz]. intros [H|[H|H]]; [lra| |]; match type of H with _ < Rabs ?x => assert (0 <= x <= 1) by lra; rewrite Rabs_pos_eq in H by lra; lra end.
Qed.

(** Four points. *)
Definition outside4 (a b c d : pt) : sphere R :=
  let s1 := Sphere_Optimal3 a b c in
  if Sphere_Contains s1 d then s1
  else let s2 := Sphere_Optimal3 a b d in
    if Sphere_Contains s2 c then s2
    else let s3 := Sphere_Optimal3 a c d in
      if Sphere_Contains s3 b then s3
      else let s4 := Sphere_Optimal3 b c d in Sph (spos s4) (Max (srad s4) (Distance a (spos s4) + 1 / 1000)).
Definition around4 (a b c d x : pt) : sphere R :=
  let pos := plus a x in Sph pos (sqrt (Max4 (DistanceSq pos a) (DistanceSq pos b) (DistanceSq pos c) (DistanceSq pos d))).
Lemma Optimal4_R (a b c d : pt) : Sphere_Optimal4 a b c d = fat (
  match FitSphere4 (minus b a) (minus c a) (minus d a) with
  | None => outside4 a b c d
  | Some (s, t, u) => if Rltb s 0 || Rltb t 0 || Rltb u 0 || Rltb 1 (s + t + u) then outside4 a b c d
      else around4 a b c d (plus (plus (scale s (minus b a)) (scale t (minus c a))) (scale u (minus d a)))
  end).
Proof.
  unfold Sphere_Optimal4. cbv zeta. change (@vsub R Num_R) with minus.
  assert (FT : forall x, Sph (spos x) (nadd (srad x) (nmul n2 sEpsilon)) = fat x). { intros x. unfold fat, sEpsilon, n2. rewrite !nlit_R. rsimpl. f_equal. lra. }
  match goal with |- ?X = _ => match X with Sph (spos ?y) _ => change X with (Sph (spos y) (nadd (srad y) (nmul n2 sEpsilon))) end end.
  rewrite FT. reflexivity.
Qed.
Lemma Optimal3_pos a b c : 2 / 10000 <= srad (Sphere_Optimal3 a b c).
Proof. pose proof (Optimal3_in a b c a ltac:(cbn; auto)). pose proof (dist_pos (spos (Sphere_Optimal3 a b c)) a). lra. Qed.
Lemma Optimal3_contains a b c d : Sphere_Contains (Sphere_Optimal3 a b c) d = true <-> in_sphere (Sphere_Optimal3 a b c) d.
Proof. apply SContains_R. pose proof (Optimal3_pos a b c). lra. Qed.
Lemma outside4_in a b c d p : In p [a; b; c; d] -> dist (spos (outside4 a b c d)) p <= srad (outside4 a b c d).
Proof.
  intros P. unfold outside4. cbv zeta.
  assert (K : forall x y z o, Sphere_Contains (Sphere_Optimal3 x y z) o = true -> In p [x; y; z; o] -> dist (spos (Sphere_Optimal3 x y z)) p <= srad (Sphere_Optimal3 x y z)).
  { intros x y z o C Q. destruct Q as [Q|[Q|[Q|[Q|[]]]]]; try (pose proof (Optimal3_in x y z p ltac:(cbn; tauto)); lra). subst p. now apply Optimal3_contains. }
  destruct (Sphere_Contains (Sphere_Optimal3 a b c) d) eqn:C1; [now apply (K a b c d)|].
  destruct (Sphere_Contains (Sphere_Optimal3 a b d) c) eqn:C2; [apply (K a b d c); [exact C2|cbn in *; tauto]|].
  destruct (Sphere_Contains (Sphere_Optimal3 a c d) b) eqn:C3; [apply (K a c d b); [exact C3|cbn in *; tauto]|].
  set (s4 := Sphere_Optimal3 b c d). cbn [spos srad]. change (@Distance R Num_R) with dist. rewrite Max_R. match goal with |- context [Rmax ?u ?v] => pose proof (Rmax_l u v) as L; pose proof (Rmax_r u v) as M end.
  destruct P as [<-|P]; [rewrite (dist_sym (spos s4) a); lra|]. pose proof (Optimal3_in b c d p P) as Q. fold s4 in Q. lra.
Qed.
Lemma around4_in a b c d x p : In p [a; b; c; d] -> dist (spos (around4 a b c d x)) p <= srad (around4 a b c d x).
Proof.
  intros P. unfold around4. cbv zeta. cbn [spos srad]. set (m := plus a x). apply dist_le_sqrt. unfold Max4. rewrite !Max_R, !sq_dist.
  set (A := dist m a * dist m a). set (B := dist m b * dist m b). set (C := dist m c * dist m c). set (E := dist m d * dist m d).
  pose proof (Rmax_l (Rmax A B) (Rmax C E)). pose proof (Rmax_r (Rmax A B) (Rmax C E)). pose proof (Rmax_l A B). pose proof (Rmax_r A B). pose proof (Rmax_l C E). pose proof (Rmax_r C E).
  destruct P as [<-|[<-|[<-|[<-|[]]]]]; [fold A|fold B|fold C|fold E]; lra.
Qed.
Lemma Optimal4_in a b c d p : In p [a; b; c; d] -> dist (spos (Sphere_Optimal4 a b c d)) p <= srad (Sphere_Optimal4 a b c d) - 2 / 10000.
Proof.
  intros P. rewrite Optimal4_R. unfold fat. cbn [spos srad]. destruct (FitSphere4 _ _ _) as [[[s t] u]|]; [|pose proof (outside4_in a b c d p P); lra].
  match goal with |- context [if ?x then _ else _] => destruct x end; [pose proof (outside4_in a b c d p P); lra|]. match goal with |- context [around4 a b c d ?x] => pose proof (around4_in a b c d x p P) end. lra.
Qed.
(** The circumcentre of the four points is one of their weighted means. *)
Definition centre_inside (a b c d : pt) : Prop := exists q i j k l, 0 <= i /\ 0 <= j /\ 0 <= k /\ 0 <= l /\ i + j + k + l = 1 /\
  q = plus (plus (plus (scale i a) (scale j b)) (scale k c)) (scale l d) /\ dist q a = dist q b /\ dist q a = dist q c /\ dist q a = dist q d.
Definition big (a b c d : pt) : Prop := let V := volume (minus b a) (minus c a) (minus d a) in 1 / 1000 <= V * V.
Lemma coeffs (u v w : pt) s t k s' t' k' : volume u v w <> 0 ->
  plus (plus (scale s u) (scale t v)) (scale k w) = plus (plus (scale s' u) (scale t' v)) (scale k' w) -> s = s' /\ t = t' /\ k = k'.
Proof.
  intros N E.
  assert (A : forall s t k, volume (plus (plus (scale s u) (scale t v)) (scale k w)) v w = s * volume u v w) by (intros; unfold volume, plus, scale; cbn [vx vy vz]; ring).
  assert (B : forall s t k, volume u (plus (plus (scale s u) (scale t v)) (scale k w)) w = t * volume u v w) by (intros; unfold volume, plus, scale; cbn [vx vy vz]; ring).
  assert (C : forall s t k, volume u v (plus (plus (scale s u) (scale t v)) (scale k w)) = k * volume u v w) by (intros; unfold volume, plus, scale; cbn [vx vy vz]; ring).
  pose proof (A s t k) as A1. rewrite E, A in A1. pose proof (B s t k) as B1. rewrite E, B in B1. pose proof (C s t k) as C1. rewrite E, C in C1.
  apply Rmult_eq_reg_r in A1; [|exact N]. apply Rmult_eq_reg_r in B1; [|exact N]. apply Rmult_eq_reg_r in C1; [|exact N]. auto.
Qed.
Lemma fit4_inside a b c d : big a b c d -> exists s t k, FitSphere4 (minus b a) (minus c a) (minus d a) = Some (s, t, k) /\
  let x := plus (plus (scale s (minus b a)) (scale t (minus c a))) (scale k (minus d a)) in
  (forall p, In p [a; b; c; d] -> dist (plus a x) p = norm x) /\ plus a x = plus (plus (plus (scale (1 - s - t - k) a) (scale s b)) (scale t c)) (scale k d) /\
  (centre_inside a b c d <-> 0 <= s /\ 0 <= t /\ 0 <= k /\ s + t + k <= 1).
Proof.
  intros H. destruct (C78_fit4 a b c d) as [_ F4]. destruct (F4 H) as (S & FS & E & U). destruct (Fit4_some (minus b a) (minus c a) (minus d a) H) as (s & t & k & F & _).
  exists s, t, k. split; [exact F|]. unfold Sphere_Fit4 in FS. cbv zeta in FS. change (@vsub R Num_R) with minus in FS. rewrite F in FS.
  change (vadd (vadd (smulv s (minus b a)) (smulv t (minus c a))) (smulv k (minus d a))) with (plus (plus (scale s (minus b a)) (scale t (minus c a))) (scale k (minus d a))) in FS.
  set (x := plus (plus (scale s (minus b a)) (scale t (minus c a))) (scale k (minus d a))) in *. injection FS. intros FS'. rewrite <- FS' in *. cbn [spos srad] in *. change (vadd a x) with (plus a x) in *. change (Length x) with (norm x) in *. cbv zeta.
  assert (M : plus a x = plus (plus (plus (scale (1 - s - t - k) a) (scale s b)) (scale t c)) (scale k d)) by (unfold x, plus, scale, minus; cbn [vx vy vz]; apply vec_ext; cbn [vx vy vz]; ring).
  split; [exact E|]. split; [exact M|]. split.
  - intros (q & i & j & m & l & I & J & K & L & SUM & Q & Q1 & Q2 & Q3). destruct (U q (dist q a)) as [QX _]; [intros p [<-|[<-|[<-|[<-|[]]]]]; congruence|].
    assert (N : volume (minus b a) (minus c a) (minus d a) <> 0) by (intros N; unfold big in H; rewrite N in H; lra).
    destruct (coeffs (minus b a) (minus c a) (minus d a) s t k j m l N) as (-> & -> & ->); [|lra]. fold x.
    assert (X : x = minus q a) by (rewrite QX; clearbody x; unfold minus, plus; cbn [vx vy vz]; apply vec_ext; cbn [vx vy vz]; ring).
    rewrite X, Q. replace i with (1 - j - m - l) by lra. unfold plus, scale, minus. cbn [vx vy vz]. apply vec_ext; cbn [vx vy vz]; ring.
  - intros (A & B & C & D). exists (plus a x), (1 - s - t - k), s, t, k. repeat (split; [lra|]). split; [exact M|]. rewrite !E by (cbn; auto). auto.
Qed.
Theorem C78_optimal4 (a b c d : pt) : encloses (Sphere_Optimal4 a b c d) [a; b; c; d] /\
  (big a b c d -> centre_inside a b c d -> least_up_to (2 / 10000) (Sphere_Optimal4 a b c d) [a; b; c; d]) /\
  (~ (big a b c d /\ centre_inside a b c d) ->
   ~ far_fit (minus b a) (minus c a) -> ~ far_fit (minus b a) (minus d a) -> ~ far_fit (minus c a) (minus d a) ->
   in_sphere (Sphere_Optimal3 a b c) d \/ in_sphere (Sphere_Optimal3 a b d) c \/ in_sphere (Sphere_Optimal3 a c d) b ->
   least_up_to (4 / 10000) (Sphere_Optimal4 a b c d) [a; b; c; d]).
Proof.
  split; [intros p P; pose proof (Optimal4_in a b c d p P); unfold in_sphere; lra|]. split.
  - intros B C. rewrite Optimal4_R. destruct (fit4_inside a b c d B) as (s & t & k & F & E & M & I). rewrite F. apply I in C. destruct C as (C1 & C2 & C3 & C4).
    rewrite !(proj2 (Rltb_false _ _)) by lra. cbn [orb]. cbv zeta in E, M. set (x := plus (plus (scale s (minus b a)) (scale t (minus c a))) (scale k (minus d a))) in *. intros q r Q. unfold fat. cbn [srad]. unfold around4. cbv zeta. cbn [srad]. rewrite !sq_dist, (E a), (E b), (E c), (E d) by (cbn; auto).
    unfold Max4. rewrite !Max_R, !(Rmax_left (norm x * norm x) (norm x * norm x)) by lra. rewrite sqrt_square by apply norm_pos.
    enough (norm x <= r) by lra. apply (hull4_least a b c d (plus a x) q (norm x) r (1 - s - t - k) s t k); try lra; try (apply E; cbn; auto); try (apply Q; cbn; auto). exact M.
  - intros NI F1 F2 F3 ONE. rewrite Optimal4_R.
    assert (O : match FitSphere4 (minus b a) (minus c a) (minus d a) with
        | None => outside4 a b c d
        | Some (s, t, u) => if Rltb s 0 || Rltb t 0 || Rltb u 0 || Rltb 1 (s + t + u) then outside4 a b c d
            else around4 a b c d (plus (plus (scale s (minus b a)) (scale t (minus c a))) (scale u (minus d a))) end = outside4 a b c d).
    { destruct (Rlt_le_dec (volume (minus b a) (minus c a) (minus d a) * volume (minus b a) (minus c a) (minus d a)) (1 / 1000)) as [L|L]; [now rewrite Fit4_none|].
      destruct (fit4_inside a b c d L) as (s & t & k & F & E & M & I). rewrite F.
      destruct (Rltb_spec s 0), (Rltb_spec t 0), (Rltb_spec k 0), (Rltb_spec 1 (s + t + k)); try reflexivity. exfalso. apply NI. split; [exact L|]. apply I. lra. }
    rewrite O. intros q r Q. unfold fat. cbn [srad]. enough (srad (outside4 a b c d) <= r + 2 / 10000) by lra.
    assert (K : forall x y z, ~ far_fit (minus y x) (minus z x) -> (forall p, In p [x; y; z] -> In p [a; b; c; d]) -> srad (Sphere_Optimal3 x y z) <= r + 2 / 10000).
    { intros x y z N S. destruct (C78_optimal3 x y z) as [_ G]. apply (G N q r). intros p P. apply Q, S, P. }
    unfold outside4. cbv zeta.
    destruct (Sphere_Contains (Sphere_Optimal3 a b c) d) eqn:D1; [apply K; [assumption|cbn; tauto]|].
    destruct (Sphere_Contains (Sphere_Optimal3 a b d) c) eqn:D2; [apply K; [assumption|cbn; tauto]|].
    destruct (Sphere_Contains (Sphere_Optimal3 a c d) b) eqn:D3; [apply K; [assumption|cbn; tauto]|].
    exfalso. destruct ONE as [G|[G|G]]; apply Optimal3_contains in G; congruence.
Qed.
Print Assumptions C78_optimal4.
Example C78_optimal4_witness : big (V3 1 1 1) (V3 (-1) (-1) 1) (V3 (-1) 1 (-1)) (V3 1 (-1) (-1)) /\ centre_inside (V3 1 1 1) (V3 (-1) (-1) 1) (V3 (-1) 1 (-1)) (V3 1 (-1) (-1)).
Proof.
  split; [unfold big, volume, minus, dot; cbn [vx vy vz]; lra|]. exists (V3 0 0 0), (1/4), (1/4), (1/4), (1/4). repeat (split; [lra|]). split; [unfold plus, scale; cbn [vx vy vz]; apply vec_ext; cbn [vx vy vz]; field|].
  unfold dist, norm, dot, minus. cbn [vx vy vz]. split; [|split]; f_equal; ring.
Qed.
(** Five points: the sphere of four of them; the fifth is contained up to 1/10000 in the squared distance, unless the result says 4. *)
Theorem C78_optimal5 (a b c d e : pt) : let '(s, k) := Sphere_Optimal5 a b c d e in
  (k <= 4)%nat /\ (forall i, (i < 5)%nat -> i <> k -> in_sphere s (nth i [a; b; c; d; e] a)) /\
  ((k < 4)%nat -> forall p, In p [a; b; c; d; e] -> dist (spos s) p * dist (spos s) p <= srad s * srad s + 1 / 10000).
Proof.
  unfold Sphere_Optimal5. cbv zeta.
  assert (G : forall w x y z p, In p [w; x; y; z] -> in_sphere (Sphere_Optimal4 w x y z) p) by (intros w x y z p P; pose proof (Optimal4_in w x y z p P); unfold in_sphere; lra).
  assert (H : forall w x y z p, In p [w; x; y; z] -> dist (spos (Sphere_Optimal4 w x y z)) p * dist (spos (Sphere_Optimal4 w x y z)) p <= srad (Sphere_Optimal4 w x y z) * srad (Sphere_Optimal4 w x y z) + 1 / 10000).
  { intros w x y z p P. pose proof (G w x y z p P) as Q. unfold in_sphere in Q. pose proof (dist_pos (spos (Sphere_Optimal4 w x y z)) p). nra. }
  assert (E : forall (s : sphere R) p, Sphere_ContainsEps s p sEpsilon = true -> dist (spos s) p * dist (spos s) p <= srad s * srad s + 1 / 10000).
  { intros s p C. unfold Sphere_ContainsEps, sEpsilon in C. rewrite nlit_R in C. rsimpl. rewrite sq_dist in C. now apply Rleb_true in C. }
  set (f := @Sphere_Optimal4 R Num_R) in *. set (g := @Sphere_ContainsEps R Num_R) in *. clearbody f g.
  assert (N : forall k s, (k < 5)%nat -> (forall i, In i [0; 1; 2; 3; 4]%nat -> i <> k -> in_sphere s (nth i [a; b; c; d; e] a)) -> forall i, (i < 5)%nat -> i <> k -> in_sphere s (nth i [a; b; c; d; e] a)).
  { intros k s K I i L. apply I. do 5 (destruct i; [cbn; tauto|]). Lia.lia. }
  destruct (g (f b c d e) a sEpsilon) eqn:C0; [|destruct (g (f a c d e) b sEpsilon) eqn:C1; [|destruct (g (f a b d e) c sEpsilon) eqn:C2; [|destruct (g (f a b c e) d sEpsilon) eqn:C3]]];
    (split; [Lia.lia|]; split; [apply N; [Lia.lia|]; intros i [<-|[<-|[<-|[<-|[<-|[]]]]]] NE; try (exfalso; now apply NE); cbn [nth]; apply G; cbn; tauto|]; intros LT; try (exfalso; Lia.lia);
     intros p [<-|[<-|[<-|[<-|[<-|[]]]]]]; try (apply E; assumption); apply H; cbn; tauto).
Qed.
Print Assumptions C78_optimal5.
