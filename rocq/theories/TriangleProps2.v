(** C48: line/triangle intersection; C49: triangle/box separating axes. *)
From Coq Require Import Reals Lra Psatz Bool List.
From Verif Require Import Num NumR ScalarModel ScalarProofs Vec3Model Vec2Model GeoTypes MatModel GMatProofs GeoSpec GeoLemmas Vec3Props AabbSpec LineModel LineSpec LineProofs LineProofs2 LineProps
  MatSpec MatProofs MatProofs2 PlaneModel PlaneSpec PlaneProps PlaneProps2 PlaneProps3 TriangleModel TriangleSpec TriangleProps.
Import ListNotations.
Open Scope R_scope.

(** The determinant of the line direction and the two edges from the first corner: how far from parallel the line is. *)
Definition tri_det (t : triangle R) (d : pt) : R := - volume d (minus (tri_b t) (tri_a t)) (minus (tri_c t) (tri_a t)).
Lemma tri_det_nrm t d : tri_det t d = - dot d (nrm t).
Proof. unfold tri_det, nrm. now rewrite volume_cross. Qed.
Lemma LineTri_R (p d a b c : pt) : let t := Tri a b c in let D := tri_det t d in
  let u := dot (minus p a) (cross d (minus c a)) * (1 / D) in let v := dot d (cross (minus p a) (minus b a)) * (1 / D) in
  IntersectLineTri p d a b c =
    if Rleb (Rabs D) (1 / 10000) then None
    else if Rltb u (- (1 / 10000)) || Rltb (1 + 1 / 10000) u then None
    else if Rltb v (- (1 / 10000)) || Rltb (1 + 1 / 10000) (u + v) then None
    else Some (dot (minus c a) (cross (minus p a) (minus b a)) * (1 / D), u, v).
Proof.
  cbv zeta. unfold IntersectLineTri. change (@vsub R Num_R) with minus. change (@Cross R Num_R) with cross. change (@Dot R Num_R) with dot. cbv zeta. rewrite Abs_R. rsimpl.
  replace (dot (minus b a) (cross d (minus c a))) with (tri_det (Tri a b c) d) by (unfold tri_det, cross; cbn [tri_a tri_b tri_c]; gunf; ring). reflexivity.
Qed.
Theorem C48_line_triangle (p d a b c : pt) (s u v : R) : let t := Tri a b c in
  IntersectLineTri p d a b c = Some (s, u, v) <->
  1 / 10000 < Rabs (tri_det t d) /\ along p d s = bary t (1 - u - v) u v /\ - (1 / 10000) <= u <= 1 + 1 / 10000 /\ - (1 / 10000) <= v /\ u + v <= 1 + 1 / 10000.
Proof.
  cbv zeta. rewrite LineTri_R. set (D := tri_det (Tri a b c) d). set (e := 1 / 10000).
  assert (E : D <> 0 -> forall s u v, along p d s = bary (Tri a b c) (1 - u - v) u v <->
    s = dot (minus c a) (cross (minus p a) (minus b a)) * (1 / D) /\ u = dot (minus p a) (cross d (minus c a)) * (1 / D) /\ v = dot d (cross (minus p a) (minus b a)) * (1 / D)).
  { intros N s' u' v'. rewrite bary_plus. cbn [tri_a tri_b tri_c]. split.
    - intros H. assert (Q : minus p a = minus (plus (scale u' (minus b a)) (scale v' (minus c a))) (scale s' d)).
      { assert (X := f_equal vx H). assert (Y := f_equal vy H). assert (Z := f_equal vz H). apply vec_ext; revert X Y Z; gunf; lra. }
      rewrite Q. set (x := minus b a) in *. set (y := minus c a) in *.
      replace (dot y (cross (minus (plus (scale u' x) (scale v' y)) (scale s' d)) x)) with (s' * D) by (unfold D, tri_det, cross; cbn [tri_a tri_b tri_c]; fold x y; gunf; ring).
      replace (dot (minus (plus (scale u' x) (scale v' y)) (scale s' d)) (cross d y)) with (u' * D) by (unfold D, tri_det, cross; cbn [tri_a tri_b tri_c]; fold x y; gunf; ring).
      replace (dot d (cross (minus (plus (scale u' x) (scale v' y)) (scale s' d)) x)) with (v' * D) by (unfold D, tri_det, cross; cbn [tri_a tri_b tri_c]; fold x y; gunf; ring).
      repeat split; field; easy.
    - intros (-> & -> & ->).
      assert (Q : plus (scale D (minus p a)) (scale (dot (minus c a) (cross (minus p a) (minus b a))) d) =
        plus (scale (dot (minus p a) (cross d (minus c a))) (minus b a)) (scale (dot d (cross (minus p a) (minus b a))) (minus c a))).
      { unfold D, tri_det, cross. cbn [tri_a tri_b tri_c]. set (x := minus b a). set (y := minus c a). set (z := minus p a). apply vec_ext; gunf; ring. }
      apply vec_ext.
      + apply (f_equal vx) in Q. revert Q. unfold along, plus, scale, minus at 1 4 7 10. cbn [vx vy vz]. intros Q. apply Rmult_eq_reg_l with D; [|easy]. unfold minus in *. cbn [vx vy vz] in *. field_simplify; [|easy|easy]. lra.
      + apply (f_equal vy) in Q. revert Q. unfold along, plus, scale, minus at 1 4 7 10. cbn [vx vy vz]. intros Q. apply Rmult_eq_reg_l with D; [|easy]. unfold minus in *. cbn [vx vy vz] in *. field_simplify; [|easy|easy]. lra.
      + apply (f_equal vz) in Q. revert Q. unfold along, plus, scale, minus at 1 4 7 10. cbn [vx vy vz]. intros Q. apply Rmult_eq_reg_l with D; [|easy]. unfold minus in *. cbn [vx vy vz] in *. field_simplify; [|easy|easy]. lra. }
  assert (He : 0 < e) by (unfold e; lra).
  destruct (Rleb_spec (Rabs D) e) as [L|L]; [split; [discriminate|lra]|].
  assert (N : D <> 0) by (intros Z; rewrite Z, Rabs_R0 in L; lra). specialize (E N).
  set (s0 := dot (minus c a) (cross (minus p a) (minus b a)) * (1 / D)) in *. set (u0 := dot (minus p a) (cross d (minus c a)) * (1 / D)) in *. set (v0 := dot d (cross (minus p a) (minus b a)) * (1 / D)) in *. clearbody s0 u0 v0.
  rewrite E. split.
  - destruct (Rltb_spec u0 (- e)); [discriminate|]. destruct (Rltb_spec (1 + e) u0); [discriminate|]. destruct (Rltb_spec v0 (- e)); [discriminate|]. destruct (Rltb_spec (1 + e) (u0 + v0)); [discriminate|].
    cbn [orb]. intros F. injection F as <- <- <-. repeat split; lra.
  - intros (_ & (-> & -> & ->) & [U1 U2] & V & W). rewrite !(proj2 (Rltb_false _ _)) by lra. reflexivity.
Qed.
Example C48_line_triangle_witness : IntersectLineTri (V3 1 1 5) (V3 0 0 (-1)) (V3 0 0 0) (V3 4 0 0) (V3 0 4 0) = Some (5, 1 / 4, 1 / 4).
Proof.
  apply C48_line_triangle. split; [unfold tri_det; cbn [tri_a tri_b tri_c]; gunf; unfold Rabs; destruct Rcase_abs; lra|]. split; [apply vec_ext; unfold bary; gunf; cbn; lra|lra].
Qed.
Definition tol : R := 1 / 10000.
Lemma bary_in_enlarged t u v w e : - e <= u -> - e <= v -> - e <= w -> u + v + w = 1 -> in_enlarged t e (bary t u v w).
Proof. intros. now exists u, v, w. Qed.
Lemma LineTri_sound p d (t : triangle R) s u v : IntersectLineTri p d (tri_a t) (tri_b t) (tri_c t) = Some (s, u, v) -> in_enlarged t tol (along p d s) /\ along p d s = bary t (1 - u - v) u v /\ tol < Rabs (tri_det t d).
Proof.
  destruct t as [a b c]. cbn [tri_a tri_b tri_c]. intros H. apply C48_line_triangle in H. destruct H as (D & E & U & V & W). split; [|now split]. rewrite E. unfold tol. apply bary_in_enlarged; lra.
Qed.
Lemma LineTri_complete p d (t : triangle R) s : tol < Rabs (tri_det t d) -> in_triangle t (along p d s) ->
  exists u v, IntersectLineTri p d (tri_a t) (tri_b t) (tri_c t) = Some (s, u, v) /\ along p d s = bary t (1 - u - v) u v /\ 0 <= u /\ 0 <= v /\ u + v <= 1.
Proof.
  destruct t as [a b c]. cbn [tri_a tri_b tri_c]. intros D (w & u & v & W & U & V & E & H). exists u, v. replace w with (1 - u - v) in H by lra. cbn [tri_a tri_b tri_c] in *. split; [|split; [exact H|lra]].
  apply C48_line_triangle. split; [exact D|]. split; [exact H|lra].
Qed.
Lemma seg_dir_eq (l : segment R) : vsub (seg_b l) (seg_a l) = sdir l. Proof. reflexivity. Qed.
(** A point on the line, segment or ray and in the triangle is the one reported, unless the line is almost parallel to the triangle or the triangle is
    small; a reported point is on the line, segment or ray, and in the triangle enlarged by 1/10000 in barycentric terms. *)
Theorem C48_intersects (t : triangle R) (l : line R) (r : ray R) (s : segment R) :
  (tol < Rabs (tri_det t (ldir l)) -> forall x, in_triangle t (along (lpos l) (ldir l) x) -> Tri_IntersectsLine t l = Some (x, along (lpos l) (ldir l) x)) /\
  (tol < Rabs (tri_det t (rdir r)) -> forall x, 0 <= x -> in_triangle t (along (rpos r) (rdir r) x) -> Tri_IntersectsRay t r = Some (x, along (rpos r) (rdir r) x)) /\
  (tol < Rabs (tri_det t (minus (seg_b s) (seg_a s))) -> forall x, 0 <= x <= 1 -> in_triangle t (along (seg_a s) (minus (seg_b s) (seg_a s)) x) ->
    Tri_IntersectsSeg t s = Some (x, along (seg_a s) (minus (seg_b s) (seg_a s)) x)) /\
  (forall x q, Tri_IntersectsLine t l = Some (x, q) -> q = along (lpos l) (ldir l) x /\ in_enlarged t tol q) /\
  (forall x q, Tri_IntersectsRay t r = Some (x, q) -> 0 <= x /\ q = along (rpos r) (rdir r) x /\ in_enlarged t tol q) /\
  (forall x q, Tri_IntersectsSeg t s = Some (x, q) -> 0 <= x <= 1 /\ q = along (seg_a s) (minus (seg_b s) (seg_a s)) x /\ in_enlarged t tol q).
Proof.
  unfold Tri_IntersectsLine, Tri_IntersectsRay, Tri_IntersectsSeg. change (minus (seg_b s) (seg_a s)) with (sdir s). change (vsub (seg_b s) (seg_a s)) with (sdir s).
  split; [|split; [|split; [|split; [|split]]]].
  - intros D x I. destruct (LineTri_complete _ _ _ _ D I) as (u & v & -> & _). now rewrite Line_GetPoint_R.
  - intros D x X I. destruct (LineTri_complete _ _ _ _ D I) as (u & v & -> & _). rsimpl. rewrite (proj2 (Rleb_true 0 x)) by lra. now rewrite Ray_GetPoint_R.
  - intros D x X I. destruct (LineTri_complete _ _ _ _ D I) as (u & v & -> & _). rsimpl. rewrite (proj2 (Rleb_true 0 x)), (proj2 (Rleb_true x 1)) by lra. cbn [andb]. now rewrite Seg_GetPoint_R.
  - intros x q. destruct IntersectLineTri as [[[y u] v]|] eqn:H; [|discriminate]. intros F. injection F as -> <-. apply LineTri_sound in H. rewrite Line_GetPoint_R. easy.
  - intros x q. destruct IntersectLineTri as [[[y u] v]|] eqn:H; [|discriminate]. rsimpl. destruct (Rleb_spec 0 y); [|discriminate]. intros F. injection F as -> <-. apply LineTri_sound in H. rewrite Ray_GetPoint_R. easy.
  - intros x q. destruct IntersectLineTri as [[[y u] v]|] eqn:H; [|discriminate]. rsimpl. destruct (Rleb_spec 0 y); [|discriminate]. destruct (Rleb_spec y 1); [|discriminate]. intros F. injection F as -> <-.
    apply LineTri_sound in H. rewrite Seg_GetPoint_R. easy.
Qed.
Definition small_tri : triangle R := Tri (V3 0 0 0) (V3 (1 / 100) 0 0) (V3 0 (1 / 100) 0).
Lemma small_tri_proper : proper_tri small_tri.
Proof. apply proper_nrm. unfold nrm, small_tri, cross, origin; gunf. intros E. apply (f_equal vz) in E. cbn in E. lra. Qed.
(** A triangle with legs of length 1/100 is missed by a line through it perpendicular to it. *)
Theorem C48_small_refuted : exists (t : triangle R) (l : line R) p, proper_tri t /\ unitv (ldir l) /\ on_line l p /\ in_triangle t p /\ Tri_IntersectsLine t l = None.
Proof.
  exists small_tri, (Ln (V3 (1 / 400) (1 / 400) 1) (V3 0 0 1)), (V3 (1 / 400) (1 / 400) 0). split; [apply small_tri_proper|]. split; [unfold unitv, dot; cbn; lra|].
  split; [exists (-1); apply vec_ext; unfold along, plus, scale; cbn; lra|]. split; [exists (1 / 2), (1 / 4), (1 / 4); repeat split; try lra; apply vec_ext; unfold small_tri, plus, scale; cbn; lra|].
  unfold Tri_IntersectsLine, small_tri. cbn [tri_a tri_b tri_c lpos ldir]. rewrite LineTri_R. rewrite (proj2 (Rleb_true _ _)); [easy|].
  unfold tri_det, volume, minus. cbn. unfold Rabs. destruct Rcase_abs; lra.
Qed.
Example C48_intersects_witness : Tri_IntersectsSeg (Tri (V3 0 0 0) (V3 4 0 0) (V3 0 4 0)) (Seg (V3 1 1 5) (V3 1 1 (-5))) = Some (1 / 2, V3 1 1 0).
Proof.
  destruct (C48_intersects (Tri (V3 0 0 0) (V3 4 0 0) (V3 0 4 0)) w_line (Ry (V3 0 0 0) (V3 0 0 1)) (Seg (V3 1 1 5) (V3 1 1 (-5)))) as (_ & _ & H & _). cbn [seg_a seg_b] in H.
  rewrite (H ltac:(unfold tol, tri_det, volume, minus; cbn; unfold Rabs; destruct Rcase_abs; lra) (1 / 2)); [do 2 f_equal; apply vec_ext; unfold along, plus, scale, minus; cbn; lra|lra|].
  exists (1 / 2), (1 / 4), (1 / 4). repeat split; try lra. apply vec_ext; unfold along, plus, scale, minus; cbn; lra.
Qed.
Print Assumptions C48_line_triangle.
Print Assumptions C48_intersects.
Print Assumptions C48_small_refuted.
