(** C109, continued: random points of a frustum. *)
From Coq Require Import Reals Psatz List Bool.
From Verif Require Import Num NumR ScalarModel ScalarProofs Vec3Model GeoTypes GeoSpec GeoLemmas Vec3Props AabbModel AabbSpec AabbProofs AabbProps AabbProps2 MatModel MatSpec MatProofs MatProofs2 LineModel LineSpec LineProofs LineProofs2
  RotModel RotSpec RotProofs PlaneModel PlaneSpec PlaneProps SphereSpec ObbModel ObbProps ObbProps3 ObbProps4 Vec2Model FrustumModel FrustumSpec FrustumProps FrustumProps2 FrustumProps3 FrustumProps4 FrustumProps5 FrustumProps6 FrustumProps7 RandomModel RandomProps.
Import ListNotations.
Open Scope R_scope.
Ltac Zify.zify_post_hook ::= idtac.

Definition frustum_draws (draw : nat -> R) : Prop := -1 <= draw 0%nat <= 1 /\ -1 <= draw 1%nat <= 1 /\ 0 <= draw 2%nat <= 1.
(** The quick method: every outcome lies in the region and every point of the region is an outcome. *)
Theorem C109_frustum_fast (f : frustum R) : frustum_ok f -> forall p, in_frustum f p <-> exists draw, frustum_draws draw /\ Frustum_FastRandomPointInside f draw = p.
Proof.
  intros K p. destruct (C84_points f K) as (_ & H & _). rewrite (H p). split.
  - intros (x & y & z & X & Y & Z & ->). exists (draws [x; y; z]). split; [now repeat split|reflexivity].
  - intros (draw & (X & Y & Z) & <-). exists (draw 0%nat), (draw 1%nat), (draw 2%nat). now repeat split.
Qed.
Print Assumptions C109_frustum_fast.

(** The depths inside the bounding box. *)
Lemma obb_depth (f : frustum R) (g : R) p : frustum_ok f -> 0 <= g -> in_obb (Frustum_MinimalEnclosingOBB f g) p -> fnear f - g <= depth f p <= ffar f + g.
Proof.
  intros K G (x & y & z & X & Y & Z & ->). destruct (C84_obb f 0 K (Rle_refl 0)) as (F & OK & A1 & A2 & _ & M). cbv zeta in *. set (o := Frustum_MinimalEnclosingOBB f 0) in *. specialize (M eq_refl).
  assert (EQ : opos (Frustum_MinimalEnclosingOBB f g) = opos o /\ oaxis0 (Frustum_MinimalEnclosingOBB f g) = oaxis0 o /\ oaxis1 (Frustum_MinimalEnclosingOBB f g) = oaxis1 o /\ oaxis2 (Frustum_MinimalEnclosingOBB f g) = oaxis2 o /\ vz (orad (Frustum_MinimalEnclosingOBB f g)) = vz (orad o) + g).
  { repeat split; unfold o, Frustum_MinimalEnclosingOBB; cbv zeta; cbn [orad vz]; rsimpl; ring. }
  destruct EQ as (E0 & E1 & E2 & E3 & E4). rewrite E0, E1, E2, E3. rewrite E4 in Z. clear E0 E1 E2 E3 E4 X Y.
  destruct (dot_right_front f K) as (RF & RU & UF & RR & UU & FF). pose proof K as (_ & _ & _ & N & _).
  assert (DEP : forall a b c, depth f (plus (opos o) (plus (scale a (oaxis0 o)) (plus (scale b (oaxis1 o)) (scale c (oaxis2 o))))) = depth f (opos o) - c).
  { intros a b c. destruct F as (U0 & U1 & U2 & O1 & O2 & O3). unfold orth, unitv in *. rewrite A2 in *. assert (Q0 : dot (oaxis0 o) (ffront f) = 0) by (rewrite dot_scale_r in O2; lra). assert (Q1 : dot (oaxis1 o) (ffront f) = 0) by (rewrite dot_scale_r in O3; lra).
    unfold depth. replace (minus (plus (opos o) (plus (scale a (oaxis0 o)) (plus (scale b (oaxis1 o)) (scale c (scale (-1) (ffront f)))))) (fpos f)) with (plus (minus (opos o) (fpos f)) (plus (scale a (oaxis0 o)) (plus (scale b (oaxis1 o)) (scale c (scale (-1) (ffront f)))))) by (unfold plus, minus, scale; apply vec_ext; cbn [vx vy vz]; ring).
    rewrite !dot_plus_l, !dot_scale_l, Q0, Q1. assert (FF' : dot (ffront f) (ffront f) = 1) by exact FF. rewrite FF'. ring. }
  set (mid := (fnear f + ffar f) / 2). set (s := depth f (opos o) - mid). set (q := Obb (plus (opos o) (scale s (oaxis2 o))) (V3 (vx (orad o)) (vy (orad o)) ((ffar f - fnear f) / 2)) (oaxis0 o) (oaxis1 o) (oaxis2 o)).
  assert (IO : forall p, in_frustum f p -> in_obb o p).
  { intros p P. destruct (C84_obb f 0 K (Rle_refl 0)) as (_ & _ & _ & _ & H & _). cbv zeta in H. fold o in H. specialize (H p (V3 0 0 0) P). cbn [vx vy vz] in H. rewrite Rabs_R0 in H. specialize (H (Rle_refl 0) (Rle_refl 0) (Rle_refl 0)).
    match type of H with in_obb o ?x => replace x with p in H by (unfold plus, scale; apply vec_ext; cbn [vx vy vz]; ring) end. exact H. }
  assert (IQ : forall p, in_frustum f p -> in_obb q p).
  { intros p P. destruct (IO p P) as (a & b & c & A & B & C & E). destruct P as (D & _). rewrite E, DEP in D. exists a, b, (c - s). unfold q. cbn [orad opos oaxis0 oaxis1 oaxis2 vx vy vz]. split; [exact A|]. split; [exact B|]. split; [unfold s, mid; lra|]. rewrite E. unfold plus, scale. apply vec_ext; cbn [vx vy vz]; ring. }
  assert (QD : forall p, in_obb q p -> fnear f <= depth f p <= ffar f).
  { intros p (a & b & c & A & B & C & ->). unfold q in *. cbn [orad opos oaxis0 oaxis1 oaxis2 vx vy vz] in *. match goal with |- _ <= depth f ?x <= _ => replace x with (plus (opos o) (plus (scale a (oaxis0 o)) (plus (scale b (oaxis1 o)) (scale (c + s) (oaxis2 o))))) by (unfold plus, scale; apply vec_ext; cbn [vx vy vz]; ring) end.
    rewrite DEP. unfold s, mid. lra. }
  assert (OQ : forall p, in_obb o p -> in_obb q p) by (apply (M q); [reflexivity|reflexivity|reflexivity|exact IQ]).
  destruct OK as (OX & OY & OZ).
  assert (T : forall c, - vz (orad o) <= c <= vz (orad o) -> fnear f <= depth f (opos o) - c <= ffar f).
  { intros c C. rewrite <- (DEP 0 0 c). apply QD, OQ. exists 0, 0, c. repeat split; lra. }
  rewrite DEP. pose proof (T (vz (orad o)) ltac:(lra)). pose proof (T (- vz (orad o)) ltac:(lra)). lra.
Qed.
(** The uniform method: exact for an orthographic frustum; for a perspective one, an outcome lies in the region widened by a thousandth to the sides and by 1e-5 to the front and back.  Every point of the region is an outcome. *)
Theorem C109_frustum_uniform (f : frustum R) : ready f -> 1 / 50000 < fnear f ->
  (forall u draw, within 0 1 u -> frustum_draws draw -> let p := Frustum_UniformRandomPointInside f u draw in
     (ftype f = OrthographicFrustum -> in_frustum f p) /\
     fnear f - 1 / 100000 <= depth f p <= ffar f + 1 / 100000 /\ Rabs (view_x f p) <= 1001 / 1000 * half_w f (depth f p) /\ Rabs (view_y f p) <= 1001 / 1000 * half_h f (depth f p)) /\
  (forall p, in_frustum f p -> exists u draw, within 0 1 u /\ frustum_draws draw /\ Frustum_UniformRandomPointInside f u draw = p).
Proof.
  intros RD NE. pose proof RD as (K & _). assert (NE6 : 1 / 1000000 < fnear f) by lra. destruct (C85_contains f RD NE6) as (IN & LO & _). set (o := Frustum_MinimalEnclosingOBB f (1 / 100000)).
  destruct (C84_obb f (1 / 100000) K ltac:(lra)) as (F & OK & _ & _ & EN & _). cbv zeta in *. fold o in F, OK, EN.
  assert (FAST : forall draw, frustum_draws draw -> in_frustum f (Frustum_FastRandomPointInside f draw)) by (intros draw D; apply C109_frustum_fast; [exact K|]; now exists draw).
  assert (WIDE : forall p, in_frustum f p -> fnear f - 1 / 100000 <= depth f p <= ffar f + 1 / 100000 /\ Rabs (view_x f p) <= 1001 / 1000 * half_w f (depth f p) /\ Rabs (view_y f p) <= 1001 / 1000 * half_h f (depth f p)).
  { intros p (D & X & Y). split; [lra|]. apply Rabs_le in X, Y. destruct (half_pos f (depth f p) K ltac:(lra)). lra. }
  split.
  - intros u draw W D. cbv zeta. unfold Frustum_UniformRandomPointInside. destruct (ftype f) eqn:TY.
    + destruct K as (_ & _ & _ & _ & T). rewrite TY in T. contradiction.
    + split; [intros _; now apply FAST|]. apply WIDE. now apply FAST.
    + split; [discriminate|]. assert (G : forall m k, let p := random_frustum m k f u draw in fnear f - 1 / 100000 <= depth f p <= ffar f + 1 / 100000 /\ Rabs (view_x f p) <= 1001 / 1000 * half_w f (depth f p) /\ Rabs (view_y f p) <= 1001 / 1000 * half_h f (depth f p)); [|apply G]. induction m as [|m IH]; intros k; cbn [random_frustum]; [now apply WIDE, FAST|]. cbv zeta. rewrite nlit_R. fold o.
      pose proof (proj1 (C109_obb o F OK) u k W) as IB. set (p := OBB_RandomPointInside o k u) in *. destruct (Frustum_Contains f p) eqn:E; [|apply IH].
      pose proof (obb_depth f (1 / 100000) p K ltac:(lra) IB) as DD. split; [exact DD|]. apply LO in E; [|intros _; lra]. destruct E as (E1 & E2 & _). now split.
  - intros p P. destruct (ftype f) eqn:TY.
    + destruct K as (_ & _ & _ & _ & T). rewrite TY in T. contradiction.
    + destruct (proj1 (C109_frustum_fast f K p) P) as (draw & D & E). exists (draws []), draw. split; [apply draws_within; [lra|constructor]|]. split; [exact D|]. unfold Frustum_UniformRandomPointInside. now rewrite TY.
    + assert (IB : in_obb o p). { specialize (EN p (V3 0 0 0) P). cbn [vx vy vz] in EN. rewrite Rabs_R0 in EN. specialize (EN ltac:(lra) ltac:(lra) ltac:(lra)). match type of EN with in_obb o ?x => replace x with p in EN by (unfold plus, scale; apply vec_ext; cbn [vx vy vz]; ring) end. exact EN. }
      destruct (proj1 (proj2 (C109_obb o F OK)) p IB) as (u & U & E). exists u, (draws []). split; [exact U|]. split; [repeat split; cbn; lra|]. unfold Frustum_UniformRandomPointInside. rewrite TY. change 1000%nat with (S 999). generalize 999%nat. intros n. cbn [random_frustum]. cbv zeta. rewrite nlit_R. fold o. rewrite E. now rewrite (IN p P).
Qed.
Print Assumptions C109_frustum_uniform.
(** It can return a point outside the region. *)
Theorem C109_frustum_refuted : exists f u draw, ready f /\ fnear f = 1 /\ ffar f = 10 /\ within 0 1 u /\ frustum_draws draw /\ ~ in_frustum f (Frustum_UniformRandomPointInside f u draw).
Proof.
  set (f := right_angle 1 10 FrustumSpaceGL FrustumRightHanded). assert (RD : ready f) by (apply lens_ready; [lra|discriminate|discriminate]). pose proof RD as (K & _).
  assert (TN : tan (PI / 2 / 2) = 1) by (replace (PI / 2 / 2) with (PI / 4) by field; apply tan_PI4).
  assert (NE : 1 / 1000000 < fnear f) by (cbn; lra). destruct (C85_contains f RD NE) as (_ & LO & _). set (o := Frustum_MinimalEnclosingOBB f (1 / 100000)).
  destruct (C84_obb f (1 / 100000) K ltac:(lra)) as (F & OK & A1 & A2 & EN & _). cbv zeta in *. fold o in F, OK, EN, A1, A2.
  assert (IB0 : forall p, in_frustum f p -> in_obb o p). { intros p P. specialize (EN p (V3 0 0 0) P). cbn [vx vy vz] in EN. rewrite Rabs_R0 in EN. specialize (EN ltac:(lra) ltac:(lra) ltac:(lra)). match type of EN with in_obb o ?x => replace x with p in EN by (unfold plus, scale; apply vec_ext; cbn [vx vy vz]; ring) end. exact EN. }
  (* 2.001 to the right at depth 2 *)
  set (p := V3 (2001 / 1000) 0 (-2) : pt).
  assert (IP : in_obb o p).
  { pose proof (IB0 (V3 (2001 / 1000) 0 (-10))) as PA. pose proof (IB0 (V3 0 0 (-2))) as PB.
    assert (FA : in_frustum f (V3 (2001 / 1000) 0 (-10))) by (unfold in_frustum, half_w, half_h, depth, view_x, view_y, fright, xprod, dot, minus; cbn; rewrite ?TN; lra).
    assert (FB : in_frustum f (V3 0 0 (-2))) by (unfold in_frustum, half_w, half_h, depth, view_x, view_y, fright, xprod, dot, minus; cbn; rewrite ?TN; lra).
    specialize (PA FA). specialize (PB FB). apply (in_obb_crd o _ F) in PA, PB. apply (in_obb_crd o _ F). destruct PA as (PA & _), PB as (_ & PB1 & PB2).
    destruct F as (U0 & U1 & U2 & O1 & O2 & O3). rewrite A1 in *. rewrite A2 in *. 
    assert (UP : fup f = V3 0 1 0) by reflexivity. assert (FR : ffront f = V3 0 0 (-1)) by reflexivity. unfold crd0, crd1, crd2 in *. rewrite A1, A2, UP, FR in *. unfold orth, unitv in *. revert PA PB1 PB2 O1 O2. unfold within_r, dot, minus, scale, p. cbn [vx vy vz]. intros PA PB1 PB2 O1 O2.
    split; [|split]; nra. }
  destruct (proj1 (proj2 (C109_obb o F OK)) p IP) as (u & U & E). exists f, u, (draws []). split; [exact RD|]. split; [reflexivity|]. split; [reflexivity|]. split; [exact U|]. split; [repeat split; cbn; lra|].
  assert (CT : Frustum_Contains f p = true).
  { apply LO; [intros _; unfold depth, dot, minus; cbn; lra|]. unfold loose, half_w, half_h, zlow, depth, view_x, view_y, fright, xprod, dot, minus, p. cbn. rewrite TN. split; [rewrite Rabs_pos_eq; lra|]. split; [match goal with |- Rabs ?x <= _ => replace x with 0 by ring end; rewrite Rabs_R0; lra|lra]. }
  unfold Frustum_UniformRandomPointInside. change (ftype f) with PerspectiveFrustum. cbv iota. change 1000%nat with (S 999). generalize 999%nat. intros n. cbn [random_frustum]. cbv zeta. rewrite nlit_R. fold o. rewrite E, CT.
  unfold in_frustum, half_w, half_h, depth, view_x, view_y, fright, xprod, dot, minus, p. cbn. rewrite TN. lra.
Qed.
Print Assumptions C109_frustum_refuted.
Example C109_frustum_witness : exists f, ready f /\ 1 / 50000 < fnear f /\ ftype f = PerspectiveFrustum.
Proof. destruct plain_camera as (f & RD & _ & _ & _ & _ & T & _ & _ & N & _). exists f. split; [exact RD|]. split; [rewrite N; lra|exact T]. Qed.
