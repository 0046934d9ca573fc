(** C49: the triangle/box test. *)
From Coq Require Import Reals Lra Psatz Bool List.
From Verif Require Import Num NumR ScalarModel ScalarProofs Vec3Model Vec2Model GeoTypes MatModel GMatProofs GeoSpec GeoLemmas Vec3Props AabbSpec AabbModel AabbProps2 LineModel LineSpec LineProofs LineProofs2 LineProps
  MatSpec MatProofs MatProofs2 PlaneModel PlaneSpec PlaneProps PlaneProps2 PlaneProps3 PlaneProps4 TriangleModel TriangleSpec TriangleProps TriangleProps2 SatTheory SatModel SatProps.
Import ListNotations.
Open Scope R_scope.

Lemma crossTest_R (d1 d2 r : R) : 0 <= r -> (crossTest d1 d2 r = true <-> (r < d1 /\ r < d2) \/ (d1 < - r /\ d2 < - r)).
Proof. intros H. unfold crossTest. rewrite !Abs_R. rsimpl. rewrite Rltb_true. rewrite (Rabs_pos_eq r H). unfold Rabs. repeat destruct Rcase_abs; split; lra. Qed.
Definition bhalf (b : aabb R) : pt := scale (1 / 2) (minus (maxPoint b) (minPoint b)).
Definition breach (b : aabb R) (m : pt) : R := vx (bhalf b) * Rabs (vx m) + vy (bhalf b) * Rabs (vy m) + vz (bhalf b) * Rabs (vz m).
Lemma box_hi b m : box_ok b -> exists a, In a (bcorners b) /\ dot m a = dot m (bcenter b) + breach b m.
Proof.
  intros O. destruct (box_describes b O) as (_ & _ & _ & H). specialize (H m). cbn [AABB_shape sh_project] in H. rewrite (box_proj b m O) in H. cbv zeta beta iota in H. destruct H as (_ & _ & (a & I & E)). exists a. split; [easy|].
  rewrite E. f_equal; [f_equal|]; unfold AABB_CenterPoint, AABB_HalfSize, AABB_Size, bcenter, breach, bhalf; vunf; [apply vec_ext; unfold plus, scale; cbn; field|unfold minus, scale; cbn; field].
Qed.
Lemma box_lo b m : box_ok b -> exists a, In a (bcorners b) /\ dot m a = dot m (bcenter b) - breach b m.
Proof.
  intros O. destruct (box_hi b (scale (-1) m) O) as (a & I & E). exists a. split; [easy|]. rewrite !dot_scale_l in E. unfold breach in *.
  assert (X : Rabs (vx (scale (-1) m)) = Rabs (vx m) /\ Rabs (vy (scale (-1) m)) = Rabs (vy m) /\ Rabs (vz (scale (-1) m)) = Rabs (vz m)).
  { repeat split; rewrite <- Rabs_Ropp; f_equal; unfold scale; cbn; ring. }
  destruct X as (X1 & X2 & X3). rewrite X1, X2, X3 in E. lra.
Qed.
Lemma reach_in b m p : in_box b p -> - breach b m <= dot m p - dot m (bcenter b) <= breach b m.
Proof.
  intros (X & Y & Z). unfold breach, bhalf, bcenter, dot, plus, minus, scale. cbn [vx vy vz]. rsimpl. unfold Rabs. repeat destruct Rcase_abs; split; nra.
Qed.
Lemma reach_open b m p : in_open_box b p -> m <> origin -> - breach b m < dot m p - dot m (bcenter b) < breach b m.
Proof.
  intros (X & Y & Z) M. set (c := bcenter b). set (h := bhalf b).
  assert (K : forall x x0 e d, - e < x - x0 < e -> 0 < e -> (d = 0 /\ d * x - d * x0 = 0 /\ e * Rabs d = 0) \/ (d <> 0 /\ - (e * Rabs d) < d * x - d * x0 < e * Rabs d)).
  { intros x x0 e d I E. destruct (Req_dec d 0) as [->|N]; [left; rewrite Rabs_R0; lra|right]. split; [easy|]. unfold Rabs. destruct Rcase_abs; split; nra. }
  assert (Hx : - vx h < vx p - vx c < vx h /\ 0 < vx h) by (unfold h, c, bhalf, bcenter, plus, minus, scale; cbn; lra).
  assert (Hy : - vy h < vy p - vy c < vy h /\ 0 < vy h) by (unfold h, c, bhalf, bcenter, plus, minus, scale; cbn; lra).
  assert (Hz : - vz h < vz p - vz c < vz h /\ 0 < vz h) by (unfold h, c, bhalf, bcenter, plus, minus, scale; cbn; lra).
  destruct (K _ _ _ (vx m) (proj1 Hx) (proj2 Hx)) as [K1|K1], (K _ _ _ (vy m) (proj1 Hy) (proj2 Hy)) as [K2|K2], (K _ _ _ (vz m) (proj1 Hz) (proj2 Hz)) as [K3|K3];
    unfold breach; fold h; unfold dot; try lra.
  exfalso. apply M. apply vec_ext; unfold origin; cbn; tauto.
Qed.
(** A gap between the box and the triangle, in terms of the reach of the box. *)
Lemma gap_reach b t m : box_ok b -> gap2 m (bcorners b) (tcorners t) ->
  (forall v, In v (tcorners t) -> breach b m < dot m v - dot m (bcenter b)) \/ (forall v, In v (tcorners t) -> dot m v - dot m (bcenter b) < - breach b m).
Proof.
  intros O [G|G].
  - left. intros v V. destruct (box_hi b m O) as (a & I & E). specialize (G a v I V). lra.
  - right. intros v V. destruct (box_lo b m O) as (a & I & E). specialize (G v a V I). lra.
Qed.
Definition center_rel (b : aabb R) (v : pt) : pt := minus v (bcenter b).
(** What the model computes. *)
Lemma tri_box_R (t : triangle R) b : box_ok b ->
  let ct m d1 d2 := (breach b m < dot m (center_rel b d1) /\ breach b m < dot m (center_rel b d2)) \/ (dot m (center_rel b d1) < - breach b m /\ dot m (center_rel b d2) < - breach b m) in
  let ctest e a b c := ct (cross e (t0 t)) a c \/ ct (cross e (t1 t)) a b \/ ct (cross e (t2 t)) a b in
  Tri_IntersectsAABB t b = false <->
    (forall v, In v (tcorners t) -> vx (maxPoint b) <= vx v) \/ (forall v, In v (tcorners t) -> vx v <= vx (minPoint b)) \/
    (forall v, In v (tcorners t) -> vy (maxPoint b) <= vy v) \/ (forall v, In v (tcorners t) -> vy v <= vy (minPoint b)) \/
    (forall v, In v (tcorners t) -> vz (maxPoint b) <= vz v) \/ (forall v, In v (tcorners t) -> vz v <= vz (minPoint b)) \/
    breach b (nrm t) <= Rabs (dot (nrm t) (center_rel b (tri_a t))) \/
    ctest (V3 1 0 0) (tri_a t) (tri_b t) (tri_c t) \/ ctest (V3 0 1 0) (tri_a t) (tri_b t) (tri_c t) \/ ctest (V3 0 0 1) (tri_a t) (tri_b t) (tri_c t).
Proof.
  intros O. destruct t as [a b0 c]. cbv zeta. unfold tcorners. cbn [tri_a tri_b tri_c].
  assert (FX : forall (f : pt -> R) m, (forall v, In v [a; b0; c] -> m <= f v) <-> m <= Rmin (f a) (Rmin (f b0) (f c))).
  { intros f m. split; [intros H|].
    - pose proof (H a (or_introl eq_refl)). pose proof (H b0 (or_intror (or_introl eq_refl))). pose proof (H c (or_intror (or_intror (or_introl eq_refl)))). now repeat apply Rmin_glb.
    - intros H v. unfold Rmin in H. destruct (Rle_dec (f b0) (f c)) in H; destruct Rle_dec in H; intros [<-|[<-|[<-|[]]]]; lra. }
  assert (FN : forall (f : pt -> R) m, (forall v, In v [a; b0; c] -> f v <= m) <-> Rmax (f a) (Rmax (f b0) (f c)) <= m).
  { intros f m. split; [intros H|].
    - pose proof (H a (or_introl eq_refl)). pose proof (H b0 (or_intror (or_introl eq_refl))). pose proof (H c (or_intror (or_intror (or_introl eq_refl)))). now repeat apply Rmax_lub.
    - intros H v. unfold Rmax in H. destruct (Rle_dec (f b0) (f c)) in H; destruct Rle_dec in H; intros [<-|[<-|[<-|[]]]]; lra. }
  rewrite !FX, !FN. clear FX FN.
  unfold Tri_IntersectsAABB. unfold vMin, vMax. cbn [vx vy vz]. rewrite !Min_R, !Max_R.
  change (@vsub R Num_R) with minus. change (@Cross R Num_R) with cross. change (@Dot R Num_R) with dot. change (@vadd R Num_R) with plus.
  assert (EC : vmuls (plus (minPoint b) (maxPoint b)) nhalf = bcenter b) by (unfold bcenter; vunf; apply vec_ext; unfold scale; cbn; ring).
  rewrite EC. assert (EH : minus (maxPoint b) (bcenter b) = bhalf b) by (unfold bcenter, bhalf; apply vec_ext; unfold scale, plus, minus; cbn; field). cbv zeta. rewrite EH. clear EC EH.
  assert (HP : 0 <= vx (bhalf b) /\ 0 <= vy (bhalf b) /\ 0 <= vz (bhalf b)) by (destruct O as (? & ? & ?); unfold bhalf, scale, minus; cbn; lra). destruct HP as (HX & HY & HZ).
  assert (ER : forall m, Rabs (dot (bhalf b) (vAbs m)) = breach b m).
  { intros m. unfold vAbs. rewrite !Abs_R. unfold breach, dot. cbn [vx vy vz]. apply Rabs_pos_eq. repeat apply Rplus_le_le_0_compat; apply Rmult_le_pos; try assumption; apply Rabs_pos. }
  rewrite !Abs_R, ER. fold (nrm (Tri a b0 c)). change (cross (minus b0 a) (minus c a)) with (nrm (Tri a b0 c)).
  change (minus b0 a) with (t0 (Tri a b0 c)). change (minus c a) with (t1 (Tri a b0 c)). change (minus c b0) with (t2 (Tri a b0 c)).
  fold (center_rel b a) (center_rel b b0) (center_rel b c). set (ac := center_rel b a). set (bc := center_rel b b0). set (cc := center_rel b c).
  assert (CX : forall e v, dot (cross (V3 1 0 0) e) v = vy e * vz v - vz e * vy v) by (intros; unfold cross, dot; cbn; ring).
  assert (CY : forall e v, dot (cross (V3 0 1 0) e) v = vz e * vx v - vx e * vz v) by (intros; unfold cross, dot; cbn; ring).
  assert (CZ : forall e v, dot (cross (V3 0 0 1) e) v = vx e * vy v - vy e * vx v) by (intros; unfold cross, dot; cbn; ring).
  assert (BX : forall e : pt, vy (bhalf b) * vz (vAbs e) + vz (bhalf b) * vy (vAbs e) = breach b (cross (V3 1 0 0) e)).
  { intros e. unfold breach, cross, vAbs. cbn [vx vy vz]. rewrite !Abs_R. replace (0 * vz e - 0 * vy e) with 0 by ring. replace (0 * vx e - 1 * vz e) with (- vz e) by ring. replace (1 * vy e - 0 * vx e) with (vy e) by ring. rewrite Rabs_R0, Rabs_Ropp. ring. }
  assert (BY : forall e : pt, vx (bhalf b) * vz (vAbs e) + vz (bhalf b) * vx (vAbs e) = breach b (cross (V3 0 1 0) e)).
  { intros e. unfold breach, cross, vAbs. cbn [vx vy vz]. rewrite !Abs_R. replace (1 * vz e - 0 * vy e) with (vz e) by ring. replace (0 * vx e - 0 * vz e) with 0 by ring. replace (0 * vy e - 1 * vx e) with (- vx e) by ring. rewrite Rabs_R0, Rabs_Ropp. ring. }
  assert (BZ : forall e : pt, vy (bhalf b) * vx (vAbs e) + vx (bhalf b) * vy (vAbs e) = breach b (cross (V3 0 0 1) e)).
  { intros e. unfold breach, cross, vAbs. cbn [vx vy vz]. rewrite !Abs_R. replace (0 * vz e - 1 * vy e) with (- vy e) by ring. replace (1 * vx e - 0 * vz e) with (vx e) by ring. replace (0 * vy e - 0 * vx e) with 0 by ring. rewrite Rabs_R0, Rabs_Ropp. ring. }
  rsimpl. rewrite !BX, !BY, !BZ, <- !CX, <- !CY, <- !CZ.
  assert (RP : forall m, 0 <= breach b m) by (intros m; rewrite <- ER; apply Rabs_pos).
  set (e0 := t0 (Tri a b0 c)). set (e1 := t1 (Tri a b0 c)). set (e2 := t2 (Tri a b0 c)). set (n := nrm (Tri a b0 c)). clearbody ac bc cc e0 e1 e2 n.
  assert (B1 : forall (q : bool) (P : Prop) (X : bool) (Q : Prop), (q = true <-> P) -> (X = false <-> Q) -> ((if q then false else X) = false <-> P \/ Q)).
  { intros [|] P X Q H1 H2; [intuition|]. rewrite H2. intuition discriminate. }
  eapply iff_trans.
  { apply B1; [rewrite !orb_true_iff, !Rleb_true; reflexivity|]. apply B1; [apply Rleb_true|].
    do 9 (apply B1; [apply crossTest_R, RP|]). instantiate (1 := False). easy. }
  tauto.
Qed.
Theorem C49_box (t : triangle R) (b : aabb R) : solid b -> proper_tri t ->
  (Tri_IntersectsAABB t b = true -> exists p, in_box b p /\ in_triangle t p) /\
  ((exists p, in_open_box b p /\ in_triangle t p) -> Tri_IntersectsAABB t b = true).
Proof.
  intros S P. pose proof (solid_ok b S) as O. pose proof (tri_box_R t b O) as TB. cbv zeta in TB. pose proof P as PN. apply proper_nrm in PN.
  assert (DC : forall m v, dot m (center_rel b v) = dot m v - dot m (bcenter b)) by (intros; unfold center_rel; apply dot_minus_r).
  assert (IN : In (tri_a t) (tcorners t) /\ In (tri_b t) (tcorners t) /\ In (tri_c t) (tcorners t)) by (cbn; tauto). destruct IN as (Ia & Ib & Ic).
  split.
  - intros H. destruct (box_describes b O) as (CA & NA & IA & _). destruct (tri_describes t) as (CB & NB & IB & _).
    destruct (sat_general (in_box b) (in_triangle t) (bcorners b) (tcorners t) _ _ _ _ CA CB IA IB NA NB (box_axes b S) (tri_axes1 t P)) as [X|(m & M & G)]; [|exact X|exfalso].
    { destruct S as (? & ? & ?). apply par_span; try lra; [apply ind_basis|discriminate]. }
    apply not_false_iff_true in H. apply H, TB. clear H TB. apply (gap_reach b t m O) in G.
    assert (HS : - vx (bhalf b) + vx (bcenter b) = vx (minPoint b) /\ vx (bhalf b) + vx (bcenter b) = vx (maxPoint b) /\ - vy (bhalf b) + vy (bcenter b) = vy (minPoint b) /\ vy (bhalf b) + vy (bcenter b) = vy (maxPoint b) /\
      - vz (bhalf b) + vz (bcenter b) = vz (minPoint b) /\ vz (bhalf b) + vz (bcenter b) = vz (maxPoint b)) by (unfold bhalf, bcenter, scale, plus, minus; cbn; lra).
    rewrite !DC. destruct M as [M|[M|M]].
    + destruct M as [<-|[<-|[<-|[]]]].
      * assert (E : breach b (V3 1 0 0) = vx (bhalf b)) by (unfold breach; cbn; rewrite Rabs_R0, Rabs_R1; ring). rsimpl. rewrite E in G.
        destruct G as [G|G]; [left|right; left]; intros v V; specialize (G v V); unfold dot in G; cbn [vx vy vz] in G; rsimpl; lra.
      * assert (E : breach b (V3 0 1 0) = vy (bhalf b)) by (unfold breach; cbn; rewrite Rabs_R0, Rabs_R1; ring). rsimpl. rewrite E in G.
        destruct G as [G|G]; [do 2 right; left|do 3 right; left]; intros v V; specialize (G v V); unfold dot in G; cbn [vx vy vz] in G; rsimpl; lra.
      * assert (E : breach b (V3 0 0 1) = vz (bhalf b)) by (unfold breach; cbn; rewrite Rabs_R0, Rabs_R1; ring). rsimpl. rewrite E in G.
        destruct G as [G|G]; [do 4 right; left|do 5 right; left]; intros v V; specialize (G v V); unfold dot in G; cbn [vx vy vz] in G; rsimpl; lra.
    + destruct M as [<-|[]]. do 6 right. left. destruct G as [G|G]; specialize (G _ Ia); unfold Rabs; destruct Rcase_abs; lra.
    + apply crosses_in in M. destruct M as (e & f & E & F & ->). do 7 right.
      assert (K : forall v w, In v (tcorners t) -> In w (tcorners t) ->
        breach b (cross e f) < dot (cross e f) v - dot (cross e f) (bcenter b) /\ breach b (cross e f) < dot (cross e f) w - dot (cross e f) (bcenter b) \/
        dot (cross e f) v - dot (cross e f) (bcenter b) < - breach b (cross e f) /\ dot (cross e f) w - dot (cross e f) (bcenter b) < - breach b (cross e f)) by (intros v w V W; destruct G as [G|G]; [left|right]; split; apply G; assumption).
      destruct E as [<-|[<-|[<-|[]]]]; [left|right; left|right; right]; (destruct F as [<-|[<-|[<-|[]]]]; [left|right; left|right; right]; apply K; assumption).
  - intros (p & IO & IT). apply not_false_iff_true. intros H. apply TB in H. clear TB. pose proof IT as (u & v & w & U & V & W & E & EP).
    assert (IB : in_box b p) by (destruct IO as ((? & ?) & (? & ?) & ? & ?); repeat split; lra).
    assert (CP : forall m, dot m p = u * dot m (tri_a t) + v * dot m (tri_b t) + w * dot m (tri_c t)) by (intros m; rewrite EP, !dot_plus_r, !dot_scale_r; ring).
    assert (CX : vx p = u * vx (tri_a t) + v * vx (tri_b t) + w * vx (tri_c t) /\ vy p = u * vy (tri_a t) + v * vy (tri_b t) + w * vy (tri_c t) /\ vz p = u * vz (tri_a t) + v * vz (tri_b t) + w * vz (tri_c t)) by (rewrite EP; unfold plus, scale; cbn; repeat split; ring).
    destruct CX as (CX & CY & CZ). rewrite !DC in H.
    assert (CONV : forall x y z k, k <= x -> k <= y -> k <= z -> k <= u * x + v * y + w * z) by (intros; nra).
    assert (CONV2 : forall x y z k, x <= k -> y <= k -> z <= k -> u * x + v * y + w * z <= k) by (intros; nra).
    assert (NOGAP : forall m, (breach b m < dot m (tri_a t) - dot m (bcenter b) /\ breach b m < dot m (tri_b t) - dot m (bcenter b) /\ breach b m < dot m (tri_c t) - dot m (bcenter b)) \/
      (dot m (tri_a t) - dot m (bcenter b) < - breach b m /\ dot m (tri_b t) - dot m (bcenter b) < - breach b m /\ dot m (tri_c t) - dot m (bcenter b) < - breach b m) -> False).
    { intros m G. pose proof (reach_in b m p IB) as RB. pose proof (CP m) as CM. destruct G as [(G1 & G2 & G3)|(G1 & G2 & G3)].
      - set (k := Rmin (dot m (tri_a t)) (Rmin (dot m (tri_b t)) (dot m (tri_c t)))). assert (K : breach b m < k - dot m (bcenter b) /\ k <= dot m (tri_a t) /\ k <= dot m (tri_b t) /\ k <= dot m (tri_c t)) by (unfold k, Rmin; repeat destruct Rle_dec; lra).
        destruct K as (K0 & K1 & K2 & K3). pose proof (CONV _ _ _ _ K1 K2 K3). lra.
      - set (k := Rmax (dot m (tri_a t)) (Rmax (dot m (tri_b t)) (dot m (tri_c t)))). assert (K : k - dot m (bcenter b) < - breach b m /\ dot m (tri_a t) <= k /\ dot m (tri_b t) <= k /\ dot m (tri_c t) <= k) by (unfold k, Rmax; repeat destruct Rle_dec; lra).
        destruct K as (K0 & K1 & K2 & K3). pose proof (CONV2 _ _ _ _ K1 K2 K3). lra. }
    destruct (dot_t) with (n := nrm t) (t := t) as (N0 & N1 & _). destruct (nrm_orth t) as (M0 & M1 & _).
    assert (D0 : forall e, dot (cross e (t0 t)) (tri_b t) = dot (cross e (t0 t)) (tri_a t)) by (intros e; pose proof (dcr e (t0 t)) as Z; unfold t0 in Z at 2; rewrite dot_minus_r in Z; lra).
    assert (D1 : forall e, dot (cross e (t1 t)) (tri_c t) = dot (cross e (t1 t)) (tri_a t)) by (intros e; pose proof (dcr e (t1 t)) as Z; unfold t1 in Z at 2; rewrite dot_minus_r in Z; lra).
    assert (D2 : forall e, dot (cross e (t2 t)) (tri_c t) = dot (cross e (t2 t)) (tri_b t)) by (intros e; pose proof (dcr e (t2 t)) as Z; unfold t2 in Z at 2; rewrite dot_minus_r in Z; lra).
    assert (CT : forall e, ~ (((breach b (cross e (t0 t)) < dot (cross e (t0 t)) (tri_a t) - dot (cross e (t0 t)) (bcenter b) /\ breach b (cross e (t0 t)) < dot (cross e (t0 t)) (tri_c t) - dot (cross e (t0 t)) (bcenter b)) \/
        (dot (cross e (t0 t)) (tri_a t) - dot (cross e (t0 t)) (bcenter b) < - breach b (cross e (t0 t)) /\ dot (cross e (t0 t)) (tri_c t) - dot (cross e (t0 t)) (bcenter b) < - breach b (cross e (t0 t)))) \/
      ((breach b (cross e (t1 t)) < dot (cross e (t1 t)) (tri_a t) - dot (cross e (t1 t)) (bcenter b) /\ breach b (cross e (t1 t)) < dot (cross e (t1 t)) (tri_b t) - dot (cross e (t1 t)) (bcenter b)) \/
        (dot (cross e (t1 t)) (tri_a t) - dot (cross e (t1 t)) (bcenter b) < - breach b (cross e (t1 t)) /\ dot (cross e (t1 t)) (tri_b t) - dot (cross e (t1 t)) (bcenter b) < - breach b (cross e (t1 t)))) \/
      ((breach b (cross e (t2 t)) < dot (cross e (t2 t)) (tri_a t) - dot (cross e (t2 t)) (bcenter b) /\ breach b (cross e (t2 t)) < dot (cross e (t2 t)) (tri_b t) - dot (cross e (t2 t)) (bcenter b)) \/
        (dot (cross e (t2 t)) (tri_a t) - dot (cross e (t2 t)) (bcenter b) < - breach b (cross e (t2 t)) /\ dot (cross e (t2 t)) (tri_b t) - dot (cross e (t2 t)) (bcenter b) < - breach b (cross e (t2 t)))))).
    { intros e [G|[G|G]].
      - apply (NOGAP (cross e (t0 t))). rewrite (D0 e). tauto.
      - apply (NOGAP (cross e (t1 t))). rewrite (D1 e). tauto.
      - apply (NOGAP (cross e (t2 t))). rewrite (D2 e). tauto. }
    destruct IO as (BX & BY & BZ).
    destruct H as [G|[G|[G|[G|[G|[G|[G|[G|[G|G]]]]]]]]].
    + pose proof (CONV _ _ _ _ (G _ Ia) (G _ Ib) (G _ Ic)). rewrite <- CX in *. lra.
    + pose proof (CONV2 _ _ _ _ (G _ Ia) (G _ Ib) (G _ Ic)). rewrite <- CX in *. lra.
    + pose proof (CONV _ _ _ _ (G _ Ia) (G _ Ib) (G _ Ic)). rewrite <- CY in *. lra.
    + pose proof (CONV2 _ _ _ _ (G _ Ia) (G _ Ib) (G _ Ic)). rewrite <- CY in *. lra.
    + pose proof (CONV _ _ _ _ (G _ Ia) (G _ Ib) (G _ Ic)). rewrite <- CZ in *. lra.
    + pose proof (CONV2 _ _ _ _ (G _ Ia) (G _ Ib) (G _ Ic)). rewrite <- CZ in *. lra.
    + pose proof (reach_open b (nrm t) p (conj BX (conj BY BZ)) PN) as RB. assert (Q : dot (nrm t) p = dot (nrm t) (tri_a t)) by (rewrite CP; replace (dot (nrm t) (tri_b t)) with (dot (nrm t) (tri_a t)) by lra; replace (dot (nrm t) (tri_c t)) with (dot (nrm t) (tri_a t)) by lra; nra).
      rewrite Q in RB. revert G. unfold Rabs. destruct Rcase_abs; lra.
    + exact (CT _ G).
    + exact (CT _ G).
    + exact (CT _ G).
Qed.
Example C49_box_witness : Tri_IntersectsAABB (Tri (V3 (-5) 0 0) (V3 5 0 0) (V3 0 5 0)) (Box (V3 (-1) (-1) (-1)) (V3 1 1 1)) = true.
Proof.
  apply C49_box; [repeat split; cbn; lra|apply proper_nrm, nzv; right; right; unfold nrm, cross; gunf; cbn; lra|].
  exists (V3 0 (1 / 2) 0). split; [repeat split; cbn; lra|]. exists (9 / 20), (9 / 20), (1 / 10). repeat split; try lra. apply vec_ext; unfold plus, scale; cbn; lra.
Qed.
(** A triangle shrunk to a segment or a point is reported not to intersect a box it is inside of. *)
Theorem C49_degenerate_refuted : exists (t : triangle R) (b : aabb R), solid b /\ (forall p, in_triangle t p -> in_open_box b p) /\ Tri_IntersectsAABB t b = false.
Proof.
  exists (Tri (V3 0 0 0) (V3 1 0 0) (V3 2 0 0)), (Box (V3 (-5) (-5) (-5)) (V3 5 5 5)). split; [repeat split; cbn; lra|]. split.
  { intros p (u & v & w & U & V & W & E & ->). unfold in_open_box, plus, scale. cbn. repeat split; nra. }
  apply tri_box_R; [repeat split; cbn; lra|]. do 6 right. left.
  assert (Z : nrm (Tri (V3 0 0 0) (V3 1 0 0) (V3 2 0 0)) = origin) by (apply vec_ext; unfold nrm, cross, origin; gunf; cbn; ring). rewrite Z. unfold breach, origin. cbn [vx vy vz]. rewrite Rabs_R0. pose proof (Rabs_pos (dot (V3 0 0 0) (center_rel (Box (V3 (-5) (-5) (-5)) (V3 5 5 5)) (tri_a (Tri (V3 0 0 0) (V3 1 0 0) (V3 2 0 0)))))). lra.
Qed.
Print Assumptions C49_box.
Print Assumptions C49_degenerate_refuted.
