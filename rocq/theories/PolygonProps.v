(** Property C90 (polygons in space: plane, basis, plane coordinates), over the reals. *)
From Coq Require Import Reals List Bool Lra Lia Arith Classical.
From Verif Require Import Num NumR ScalarModel ScalarProofs Vec3Model Vec3Props Vec2Model Vec2Spec GeoTypes GeoSpec GeoLemmas MatModel MatProofs MatProofs2 LineModel LineProofs LineProps PlaneModel PlaneSpec PlaneProps Vec2Props HullSpec HullProofs HullProps2 PlaneTestProofs PolygonModel PolygonSpec PolygonProofs.
Import ListNotations.
Open Scope R_scope.
Ltac Zify.zify_post_hook ::= idtac.

Lemma cross_cross a b c : cross (cross a b) c = minus (scale (dot a c) b) (scale (dot b c) a).
Proof. unfold cross, minus, scale, dot. apply vec_ext; cbn [vx vy vz]; ring. Qed.
Lemma cross_scale_l k a b : cross (scale k a) b = scale k (cross a b). Proof. unfold cross, scale. apply vec_ext; cbn [vx vy vz]; ring. Qed.
Lemma vdivs_R v k : @vdivs R Num_R v k = scale (/ k) v.
Proof. unfold vdivs, scale. rsimpl. apply vec_ext; cbn [vx vy vz]; unfold Rdiv; ring. Qed.
Definition sgn (x : R) : R := x / Rabs x.
Lemma sgn_pos x : 0 < x -> sgn x = 1. Proof. intros H. unfold sgn. rewrite Rabs_pos_eq by lra. field. lra. Qed.
Lemma sgn_neg x : x < 0 -> sgn x = -1. Proof. intros H. unfold sgn. rewrite Rabs_left by lra. field. lra. Qed.
Section Frame.
  Context (o U V : pt) (FR : frame U V).
  Let N : pt := cross U V.
  Definition dir (w : p2) : pt := plus (scale (x2 w) U) (scale (y2 w) V).
  Let emb := embed o U V.
  Lemma emb_minus a b : minus (emb a) (emb b) = dir (mi a b).
  Proof. unfold emb, embed, dir, minus, plus, scale, mi. apply vec_ext; cbn [vx vy vz x2 y2]; ring. Qed.
  Lemma dir_dot a b : dot (dir a) (dir b) = dt a b.
  Proof. destruct FR as (UU & VV & UV). unfold dir. rewrite !dot_plus_r, !dot_plus_l, !dot_scale_l, !dot_scale_r, UU, VV, (dot_comm V U), UV. unfold dt. ring. Qed.
  Lemma NN1 : dot N N = 1.
  Proof. destruct FR as (UU & VV & UV). unfold N. rewrite cross_sq, UU, VV, UV. ring. Qed.
  Lemma N_dir w : dot N (dir w) = 0.
  Proof. unfold N, dir. rewrite dot_plus_r, !dot_scale_r, (dot_comm _ U), (dot_comm _ V), cross_dot_l, cross_dot_r. ring. Qed.
  Lemma dir_cross a b : cross (dir a) (dir b) = scale (area2 a b) N.
  Proof. unfold N, dir, cross, scale, plus, area2. apply vec_ext; cbn [vx vy vz]; ring. Qed.
  Lemma N_cross w : cross N (dir w) = dir (perp w).
  Proof.
    destruct FR as (UU & VV & UV). unfold N. rewrite cross_cross. unfold dir at 1 2. rewrite !dot_plus_r, !dot_scale_r, UU, VV, (dot_comm V U), UV. unfold dir, perp, minus, plus, scale. apply vec_ext; cbn [vx vy vz x2 y2]; ring.
  Qed.
  Lemma dir_norm w : norm (dir w) = nrm w. Proof. unfold norm, nrm. now rewrite dir_dot. Qed.
  Lemma dir_sc k w : dir (sc k w) = scale k (dir w). Proof. unfold dir, sc, scale, plus. apply vec_ext; cbn [vx vy vz x2 y2]; ring. Qed.
  Lemma N_emb q : dot N (emb q) = dot N o.
  Proof. unfold emb, embed. fold (dir q). rewrite dot_plus_r, N_dir. ring. Qed.
  Lemma emb_dist a b : dist (emb a) (emb b) = dst a b.
  Proof. unfold dist. rewrite emb_minus. apply dir_norm. Qed.
  Lemma emb_triple a b c : cross (minus (emb b) (emb a)) (minus (emb c) (emb a)) = scale (turn a b c) N.
  Proof. rewrite !emb_minus. apply dir_cross. Qed.
  Lemma N_norm k : norm (scale k N) = Rabs k.
  Proof. rewrite norm_scale. unfold norm. rewrite NN1, sqrt_1. ring. Qed.
  (** The plane found from a triple of vertices. *)
  Definition facing (s : R) : plane R := Pln (scale s N) (dot (scale s N) o).
  Lemma triple_plane a b c : turn a b c <> 0 -> let n := vdivs (scale (turn a b c) N) (Rabs (turn a b c)) in Pln n (dot n (emb a)) = facing (sgn (turn a b c)).
  Proof.
    intros H n. unfold facing. assert (E : n = scale (sgn (turn a b c)) N) by (unfold n; rewrite vdivs_R, scale_scale; unfold sgn, Rdiv; f_equal; ring). rewrite E. f_equal. rewrite !dot_scale_l. now rewrite N_emb.
  Qed.
  Lemma planeK_R a b ks : (planeK (emb a) (minus (emb b) (emb a)) (map emb ks) = None /\ forall c, In c ks -> Rabs (turn a b c) <= lev) \/
    exists l1 c l2, ks = l1 ++ c :: l2 /\ lev < Rabs (turn a b c) /\ planeK (emb a) (minus (emb b) (emb a)) (map emb ks) = Some (facing (sgn (turn a b c))).
  Proof.
    induction ks as [|c ks IH]; [left; split; [reflexivity|intros c []]|]. cbn [map planeK]. cbv zeta. change (@vsub R Num_R) with minus. change (@Cross R Num_R) with cross. rewrite emb_triple. rewrite LengthSq_R. rewrite dot_scale_l, dot_scale_r, NN1.
    replace (turn a b c * (turn a b c * 1)) with (turn a b c * turn a b c) by ring. rewrite nlit_R. change (@nltb R Num_R) with Rltb. change (@nsqrt R Num_R) with sqrt.
    replace (IZR 1 / IZR (Z.pos 100000000)) with (lev * lev) by (unfold lev; cbn; field).
    assert (A : turn a b c * turn a b c = Rabs (turn a b c) * Rabs (turn a b c)) by (rewrite <- Rabs_mult; symmetry; apply Rabs_pos_eq; nra). pose proof (Rabs_pos (turn a b c)) as P. assert (L : 0 < lev) by (unfold lev; lra).
    destruct (Rltb_spec (lev * lev) (turn a b c * turn a b c)) as [H|H].
    - right. exists [], c, ks. assert (K : lev < Rabs (turn a b c)) by (rewrite A in H; nra). split; [reflexivity|]. split; [exact K|]. f_equal. rewrite A, sqrt_square by exact P. change (@Dot R Num_R) with dot. apply triple_plane. intros Z. rewrite Z, Rabs_R0 in K. lra.
    - destruct IH as [(E & F)|(l1 & d & l2 & E & F & G)].
      + left. split; [exact E|]. intros d [ <- |I]; [rewrite A in H; nra|now apply F].
      + right. exists (c :: l1), d, l2. split; [now rewrite E|]. split; [exact F|exact G].
  Qed.
  Lemma planeJ_R a js : (planeJ (emb a) (map emb js) = None /\ forall l1 b l2 c l3, js = l1 ++ b :: l2 ++ c :: l3 -> Rabs (turn a b c) <= lev) \/
    exists l1 b l2 c l3, js = l1 ++ b :: l2 ++ c :: l3 /\ lev < Rabs (turn a b c) /\ planeJ (emb a) (map emb js) = Some (facing (sgn (turn a b c))).
  Proof.
    induction js as [|b js IH]; [left; split; [reflexivity|intros [|? ?]; discriminate]|]. cbn [map planeJ]. change (@vsub R Num_R) with minus.
    destruct (planeK_R a b js) as [(E & F)|(l1 & c & l2 & E & F & G)].
    - rewrite E. destruct IH as [(E1 & F1)|(l1 & b' & l2 & c & l3 & E1 & F1 & G1)].
      + left. split; [exact E1|]. intros [|x l1] b' l2 c l3 K; cbn in K; injection K as -> ->; [apply F; apply in_or_app; right; now left|now apply (F1 l1 b' l2 c l3)].
      + right. exists (b :: l1), b', l2, c, l3. split; [now rewrite E1|]. now split.
    - rewrite G. right. exists [], b, l1, c, l2. split; [now rewrite E|]. now split.
  Qed.
  Lemma planeI_R is : (planeI (map emb is) = None /\ forall a b c, triple is a b c -> Rabs (turn a b c) <= lev) \/
    exists a b c, triple is a b c /\ lev < Rabs (turn a b c) /\ planeI (map emb is) = Some (facing (sgn (turn a b c))).
  Proof.
    induction is as [|a is IH]; [left; split; [reflexivity|intros a b c ([|? ?] & l2 & l3 & l4 & E); discriminate]|]. cbn [map planeI].
    destruct (planeJ_R a is) as [(E & F)|(l1 & b & l2 & c & l3 & E & F & G)].
    - rewrite E. destruct IH as [(E1 & F1)|(a' & b & c & (l1 & l2 & l3 & l4 & E1) & F1 & G1)].
      + left. split; [exact E1|]. intros a' b c ([|x l1] & l2 & l3 & l4 & K); cbn in K; injection K as -> ->; [now apply (F l2 b l3 c l4)|]. apply F1. now exists l1, l2, l3, l4.
      + right. exists a', b, c. split; [exists (a :: l1), l2, l3, l4; now rewrite E1|]. now split.
    - rewrite G. right. exists a, b, c. split; [exists [], l1, l2, l3; now rewrite E|]. now split.
  Qed.
  Lemma plane_R (qs : list p2) : spans qs -> exists a b c, triple qs a b c /\ lev < Rabs (turn a b c) /\ Poly_PlaneCCW (map emb qs) = Some (facing (sgn (turn a b c))).
  Proof.
    intros (a & b & c & TR & BIG). change (1 / 10000) with lev in BIG. pose proof TR as (l1 & l2 & l3 & l4 & E).
    assert (GEN : exists a b c, triple qs a b c /\ lev < Rabs (turn a b c) /\ planeI (map emb qs) = Some (facing (sgn (turn a b c)))) by (destruct (planeI_R qs) as [(_ & F)|K]; [specialize (F a b c TR); lra|exact K]).
    pose proof (f_equal (@length p2) E) as LN. destruct qs as [|x [|y [|z [|w r]]]].
    1, 2, 3: exfalso; cbn in LN; rewrite !app_length in LN; cbn in LN; rewrite !app_length in LN; cbn in LN; rewrite ?app_length in LN; cbn in LN; lia.
    - assert (K : l1 = [] /\ l2 = [] /\ l3 = [] /\ l4 = []) by (apply (f_equal (@length p2)) in E; cbn in E; rewrite !app_length in E; cbn in E; rewrite !app_length in E; cbn in E; rewrite app_length in E; cbn in E; destruct l1, l2, l3, l4; cbn in E; try lia; auto).
      destruct K as (-> & -> & -> & ->). cbn in E. injection E as -> -> ->. exists a, b, c. split; [exact TR|]. split; [exact BIG|]. cbn [map Poly_PlaneCCW]. f_equal. unfold Plane_Set3. cbv zeta. change (@vsub R Num_R) with minus. change (@Cross R Num_R) with cross. change (@Dot R Num_R) with dot. rewrite emb_triple.
      replace (@Length R Num_R (scale (turn a b c) N)) with (Rabs (turn a b c)) by (unfold Length; rewrite LengthSq_R; symmetry; apply N_norm). apply triple_plane. intros Z. rewrite Z, Rabs_R0 in BIG. unfold lev in BIG. lra.
    - destruct GEN as (a' & b' & c' & T' & B' & G). exists a', b', c'. split; [exact T'|]. split; [exact B'|]. change (Poly_PlaneCCW (map emb (x :: y :: z :: w :: r))) with (Some (match planeI (map emb (x :: y :: z :: w :: r)) with Some P => P | None => planeAlong (emb x) (emb y) end)). now rewrite G.
  Qed.
  (** The basis. *)
  Lemma unit_e (a b : p2) : 0 < dst a b -> dt (sc (/ dst a b) (mi b a)) (sc (/ dst a b) (mi b a)) = 1.
  Proof. intros L. assert (E : dt (mi b a) (mi b a) = dst a b * dst a b) by (rewrite dst_sym; unfold dst; now rewrite nrm_sq). replace (dt _ _) with (/ dst a b * / dst a b * dt (mi b a) (mi b a)) by (unfold dt, sc; cbn [x2 y2]; ring). rewrite E. field. lra. Qed.
  Lemma basis_R q0 q1 rest s : eps6 < dst q0 q1 -> s * s = 1 -> Poly_PlaneCCW (map emb (q0 :: q1 :: rest)) = Some (facing s) ->
    let e := sc (/ dst q0 q1) (mi q1 q0) in Poly_BasisU (map emb (q0 :: q1 :: rest)) = dir e /\ Poly_BasisV (map emb (q0 :: q1 :: rest)) = dir (sc s (perp e)).
  Proof.
    intros L S P e. assert (E0 : 0 < eps6) by (unfold eps6; lra). assert (UE : dt e e = 1) by (apply unit_e; lra).
    assert (BU : Poly_BasisU (map emb (q0 :: q1 :: rest)) = dir e).
    { cbn [map Poly_BasisU]. change (@vsub R Num_R) with minus. rewrite emb_minus. rewrite Normalized_R; rewrite dir_norm; fold (dst q1 q0); rewrite dst_sym; [|exact L]. unfold e. now rewrite dir_sc. }
    split; [exact BU|]. change (Poly_BasisV (map emb (q0 :: q1 :: rest))) with (match Poly_PlaneCCW (map emb (q0 :: q1 :: rest)) with Some P => Normalized (Cross (pnormal P) (Poly_BasisU (map emb (q0 :: q1 :: rest)))) | None => V3 n0 n1 n0 end).
    rewrite P, BU. cbn [facing pnormal]. change (@Cross R Num_R) with cross. rewrite cross_scale_l, N_cross, <- dir_sc. assert (N1 : nrm (sc s (perp e)) = 1) by (apply nrm_1; unfold dt, sc, perp in *; cbn [x2 y2] in *; transitivity (s * s * (x2 e * x2 e + y2 e * y2 e)); [ring|rewrite S, UE; ring]).
    rewrite Normalized_R; rewrite dir_norm, N1; [|unfold eps6; lra]. now rewrite Rinv_1, scale_1.
  Qed.
End Frame.
(** Convex polygons: every three vertices in order turn left. *)
Lemma along (a s b : p2) : forall l u, (forall x y, In (x, y) (path u l) -> 0 <= turn x y a) -> (forall x, x = u \/ In x l -> 0 < turn a s x) -> 0 < turn a s b -> 0 <= turn a b u -> forall x, In x l -> 0 <= turn a b x.
Proof.
  induction l as [|v l IH]; intros u E P B H x; [intros []|].
  assert (V : 0 <= turn a b v).
  { pose proof (E u v (or_introl eq_refl)) as K. pose proof (P u (or_introl eq_refl)) as P1. pose proof (P v (or_intror (or_introl eq_refl))) as P2. rewrite <- turn_cycle in K.
    assert (ID : turn a s u * turn a b v = turn a s b * turn a u v + turn a s v * turn a b u) by (unfold turn, area2, mi; cbn [x2 y2]; ring). pose proof (Rmult_le_pos _ _ (Rlt_le _ _ B) K). pose proof (Rmult_le_pos _ _ (Rlt_le _ _ P2) H). apply Rnot_lt_le. intros Z. nra. }
  intros [ <- |I]; [exact V|]. apply (IH v); try assumption; [intros c d J; apply E; now right|]. intros y Y. apply P. destruct Y as [ -> |Y]; right; [now left|now right].
Qed.
Lemma path_iff x y : forall vs p, In (x, y) (path p vs) <-> exists l1 l2, p :: vs = l1 ++ x :: y :: l2.
Proof.
  induction vs as [|v vs IH]; intros p.
  - split; [intros []|intros ([|? [|? ?]] & l2 & E); discriminate].
  - cbn [path]. split.
    + intros [E|I]; [injection E as -> ->; exists [], vs; reflexivity|]. apply IH in I as (l1 & l2 & E). exists (p :: l1), l2. cbn. now rewrite E.
    + intros ([|z l1] & l2 & E); cbn in E; [injection E as -> -> _; now left|]. injection E as -> E. right. apply IH. now exists l1, l2.
Qed.
Lemma nodup_mid (l1 l2 : list p2) x y : NoDup (l1 ++ x :: l2) -> In y l2 -> y <> x.
Proof. intros H I ->. apply NoDup_remove_2 in H. apply H. apply in_or_app. now right. Qed.
Lemma triple_ccw qs a b c : ccw_polygon qs -> triple qs a b c -> 0 <= turn a b c.
Proof.
  intros CCW (l1 & l2 & l3 & l4 & E). pose proof CCW as (ND & _ & LEFT).
  assert (PE : forall x y m1 m2, qs = m1 ++ x :: y :: m2 -> In (x, y) (polygon_edges qs)) by (intros x y m1 m2 K; destruct qs as [|q qs']; [now destruct m1|]; cbn [polygon_edges]; apply path_iff; exists (last (q :: qs') q :: m1), m2; now rewrite K).
  assert (Ia : In a qs) by (rewrite E; apply in_or_app; right; now left). assert (Ib : In b qs) by (rewrite E; apply in_or_app; right; right; apply in_or_app; right; now left). assert (Ic : In c qs) by (rewrite E; apply in_or_app; right; right; apply in_or_app; right; right; apply in_or_app; right; now left).
  destruct l2 as [|s l2].
  { apply LEFT; [|exact Ic]. now apply (PE a b l1 (l3 ++ c :: l4)). }
  assert (AS : In (a, s) (polygon_edges qs)) by now apply (PE a s l1 (l2 ++ b :: l3 ++ c :: l4)).
  assert (ND2 : NoDup (l1 ++ a :: (s :: l2) ++ b :: l3 ++ c :: l4)) by now rewrite <- E. assert (ND3 : NoDup ((l1 ++ [a]) ++ s :: (l2 ++ b :: l3 ++ c :: l4))) by now rewrite <- app_assoc.
  assert (AFTER : forall x, In x (b :: l3 ++ c :: l4) -> 0 < turn a s x).
  { intros x I. assert (J : In x (l2 ++ b :: l3 ++ c :: l4)) by (apply in_or_app; now right). apply (strict_edge qs a s x CCW AS); [rewrite E; apply in_or_app; right; right; now right|exact (nodup_mid _ _ a x ND2 (or_intror J))|exact (nodup_mid _ _ s x ND3 J)]. }
  apply (along a s b (l3 ++ c :: l4) b); [|intros x [ -> |I]; apply AFTER; [now left|now right]|apply AFTER; now left|rewrite turn_same; apply Rle_refl|apply in_or_app; right; now left].
  intros x y I. apply LEFT; [|exact Ia]. apply path_iff in I as (m1 & m2 & K). apply (PE x y (l1 ++ a :: (s :: l2) ++ m1) m2). rewrite E, K. rewrite <- app_assoc. f_equal. cbn [app]. now rewrite <- app_assoc.
Qed.
(** PlaneCCW of a plane polygon is its plane, oriented by some left- or right-turning triple of vertices; for convex polygons by the right-hand rule. *)
Theorem C90_plane (o U V : pt) (qs : list p2) : frame U V -> spans qs -> exists P s, (s = 1 \/ s = -1) /\ Poly_PlaneCCW (map (embed o U V) qs) = Some P /\ Poly_NormalCCW (map (embed o U V) qs) = Some (scale s (cross U V)) /\
  pnormal P = scale s (cross U V) /\ unitv (pnormal P) /\ (forall q, on_plane P (embed o U V q)) /\ (exists a b c, triple qs a b c /\ 0 < s * turn a b c) /\ (ccw_polygon qs -> s = 1) /\
  Poly_PlaneCW (map (embed o U V) qs) = Some (Pln (scale (-1) (pnormal P)) (- pd P)).
Proof.
  intros FR SP. destruct (plane_R o U V FR qs SP) as (a & b & c & TR & BIG & E). assert (L : 0 < lev) by (unfold lev; lra). exists (facing o U V (sgn (turn a b c))), (sgn (turn a b c)).
  assert (S : (0 < turn a b c /\ sgn (turn a b c) = 1) \/ (turn a b c < 0 /\ sgn (turn a b c) = -1)) by (unfold Rabs in BIG; destruct (Rcase_abs (turn a b c)); [right; split; [assumption|now apply sgn_neg]|left; assert (0 < turn a b c) by lra; split; [assumption|now apply sgn_pos]]).
  split; [tauto|]. split; [exact E|]. split; [unfold Poly_NormalCCW; now rewrite E|]. split; [reflexivity|]. split; [|split; [|split; [|split]]].
  - unfold unitv, facing. cbn [pnormal]. rewrite dot_scale_l, dot_scale_r, (NN1 U V FR). destruct S as [(_ & -> )|(_ & -> )]; ring.
  - intros q. unfold on_plane, facing. cbn [pnormal pd]. rewrite !dot_scale_l. now rewrite N_emb.
  - exists a, b, c. split; [exact TR|]. destruct S as [(S & -> )|(S & -> )]; lra.
  - intros CCW. pose proof (triple_ccw qs a b c CCW TR). destruct S as [(_ & S)|(S & _)]; [exact S|lra].
  - unfold Poly_PlaneCW. rewrite E. cbn [option_map]. unfold Plane_ReverseNormal. f_equal. f_equal. unfold vneg, scale, facing. rsimpl. apply vec_ext; cbn [pnormal vx vy vz]; ring.
Qed.
Section First.
  Context (o U V : pt) (FR : frame U V).
  Lemma first_triple a b c r : lev < Rabs (turn a b c) -> Poly_PlaneCCW (map (embed o U V) (a :: b :: c :: r)) = Some (facing o U V (sgn (turn a b c))).
  Proof.
    intros H. assert (SP : spans (a :: b :: c :: r)) by (exists a, b, c; split; [exists [], [], [], r; reflexivity|exact H]). destruct r as [|d r].
    - destruct (plane_R o U V FR [a; b; c] SP) as (x & y & z & (l1 & l2 & l3 & l4 & E) & _ & P). rewrite P. 
      assert (K : l1 = [] /\ l2 = [] /\ l3 = [] /\ l4 = []) by (apply (f_equal (@length p2)) in E; cbn in E; rewrite !app_length in E; cbn in E; rewrite !app_length in E; cbn in E; rewrite app_length in E; cbn in E; destruct l1, l2, l3, l4; cbn in E; try lia; auto).
      destruct K as (-> & -> & -> & ->). cbn in E. injection E as -> -> ->. reflexivity.
    - change (Poly_PlaneCCW (map (embed o U V) (a :: b :: c :: d :: r))) with (Some (match planeI (map (embed o U V) (a :: b :: c :: d :: r)) with Some P => P | None => planeAlong (embed o U V a) (embed o U V b) end)).
      cbn [map planeI planeJ planeK]. cbv zeta. change (@vsub R Num_R) with minus. change (@Cross R Num_R) with cross. rewrite (emb_triple o U V a b c). rewrite LengthSq_R, dot_scale_l, dot_scale_r, (NN1 U V FR).
      replace (turn a b c * (turn a b c * 1)) with (Rabs (turn a b c) * Rabs (turn a b c)) by (rewrite <- Rabs_mult, Rabs_pos_eq; nra). rewrite nlit_R. change (@nltb R Num_R) with Rltb. change (@nsqrt R Num_R) with sqrt.
      assert (L : 0 < lev) by (unfold lev; lra). rewrite (proj2 (Rltb_true _ _)) by (replace (IZR 1 / IZR (Z.pos 100000000)) with (lev * lev) by (unfold lev; cbn; field); nra). rewrite sqrt_square by apply Rabs_pos. f_equal. change (@Dot R Num_R) with dot. apply (triple_plane o U V a b c). intros Z. rewrite Z, Rabs_R0 in H. lra.
  Qed.
End First.
Lemma xy_frame : frame (V3 1 0 0) (V3 0 1 0). Proof. unfold frame, dot. cbn. lra. Qed.
(** For a counter-clockwise polygon that starts at a concave corner the counter-clockwise normal points the wrong way. *)
Theorem C90_concave_refuted : let qs := [V2 4 4; V2 0 1; V2 (-4) 4; V2 0 (-4)] in 0 < signed_area qs /\ Poly_NormalCCW (map (embed origin (V3 1 0 0) (V3 0 1 0)) qs) = Some (scale (-1) (cross (V3 1 0 0) (V3 0 1 0))).
Proof.
  intros qs. split; [unfold signed_area, qs, sum_edges, polygon_edges, path, area2; cbn; lra|]. assert (T : turn (V2 4 4) (V2 0 1) (V2 (-4) 4) = -24) by (unfold turn, area2, mi; cbn; lra).
  unfold Poly_NormalCCW, qs. rewrite (first_triple origin (V3 1 0 0) (V3 0 1 0) xy_frame); rewrite T; [|rewrite Rabs_left; unfold lev; lra]. rewrite sgn_neg by lra. reflexivity.
Qed.
(** The plane coordinates: the basis is orthonormal with the first axis along the first edge, and the two maps are inverse isometries. *)
Theorem C90_basis (o U V : pt) (q0 q1 : p2) (rest : list p2) : let ps := map (embed o U V) (q0 :: q1 :: rest) in frame U V -> spans (q0 :: q1 :: rest) -> eps6 < dst q0 q1 ->
  frame (Poly_BasisU ps) (Poly_BasisV ps) /\ Poly_NormalCCW ps = Some (cross (Poly_BasisU ps) (Poly_BasisV ps)) /\ minus (embed o U V q1) (embed o U V q0) = scale (dst q0 q1) (Poly_BasisU ps) /\
  (forall q h, exists w, Poly_MapTo2D ps (plus (embed o U V q) (scale h (cross U V))) = Some w /\ Poly_MapFrom2D ps w = Some (embed o U V q)) /\
  (forall w, exists p, Poly_MapFrom2D ps w = Some p /\ Poly_MapTo2D ps p = Some w) /\
  (forall q q' w w', Poly_MapTo2D ps (embed o U V q) = Some w -> Poly_MapTo2D ps (embed o U V q') = Some w' -> dst w w' = dst q q').
Proof.
  intros ps FR SP L. destruct (C90_plane o U V _ FR SP) as (P & s & S & EP & EN & PN & _). assert (S1 : s * s = 1) by (destruct S as [ -> | -> ]; ring).
  assert (PF : Poly_PlaneCCW ps = Some (facing o U V s)).
  { destruct (plane_R o U V FR _ SP) as (a & b & c & _ & _ & E). fold ps in E, EP. rewrite E in EP. injection EP as <-. unfold facing in *. cbn [pnormal] in PN. fold ps. rewrite E. now rewrite PN. }
  destruct (basis_R o U V FR q0 q1 rest s L S1 PF) as (BU & BV). fold ps in BU, BV. set (e := sc (/ dst q0 q1) (mi q1 q0)) in *. assert (E0 : 0 < eps6) by (unfold eps6; lra). assert (UE : dt e e = 1) by (apply unit_e; lra).
  assert (F1 : frame (dir U V e) (dir U V (sc s (perp e)))).
  { unfold frame. rewrite !(dir_dot U V FR). unfold dt, sc, perp in *. cbn [x2 y2] in *. split; [exact UE|]. split; [transitivity (s * s * (x2 e * x2 e + y2 e * y2 e)); [ring|rewrite S1, UE; ring]|ring]. }
  assert (CR : cross (dir U V e) (dir U V (sc s (perp e))) = scale s (cross U V)) by (rewrite (dir_cross U V); f_equal; unfold area2, sc, perp, dt in *; cbn [x2 y2] in *; transitivity (s * (x2 e * x2 e + y2 e * y2 e)); [ring|rewrite UE; ring]).
  assert (TO : forall p, Poly_MapTo2D ps p = Some (V2 (dot (minus p (embed o U V q0)) (dir U V e)) (dot (minus p (embed o U V q0)) (dir U V (sc s (perp e)))))) by (intros p; rewrite <- BU, <- BV; reflexivity).
  assert (FROM : forall w, Poly_MapFrom2D ps w = Some (plus (plus (embed o U V q0) (scale (x2 w) (dir U V e))) (scale (y2 w) (dir U V (sc s (perp e)))))) by (intros w; rewrite <- BU, <- BV; reflexivity).
  assert (RES : forall w : p2, pl (sc (dt w e) e) (sc (s * area2 e w) (sc s (perp e))) = w).
  { intros w. apply v2_ext; unfold pl, sc, perp, area2, dt in *; cbn [x2 y2] in *.
    - transitivity ((x2 e * x2 e + s * s * (y2 e * y2 e)) * x2 w + (1 - s * s) * (x2 e * y2 e * y2 w)); [ring|]. rewrite S1. replace (1 * (y2 e * y2 e)) with (y2 e * y2 e) by ring. rewrite UE. ring.
    - transitivity ((s * s * (x2 e * x2 e) + y2 e * y2 e) * y2 w + (1 - s * s) * (x2 e * y2 e * x2 w)); [ring|]. rewrite S1. replace (1 * (x2 e * x2 e)) with (x2 e * x2 e) by ring. rewrite UE. ring. }
  assert (AR : forall w, dt w (sc s (perp e)) = s * area2 e w) by (intros w; unfold dt, sc, perp, area2; cbn [x2 y2]; ring).
  rewrite BU, BV. split; [exact F1|]. split; [rewrite CR; exact EN|]. split.
  { rewrite (emb_minus o U V). unfold e. rewrite dir_sc, scale_scale, Rinv_r, scale_1 by lra. reflexivity. }
  assert (PT : forall q h, minus (plus (embed o U V q) (scale h (cross U V))) (embed o U V q0) = plus (dir U V (mi q q0)) (scale h (cross U V))) by (intros q h; rewrite <- (emb_minus o U V); unfold minus, plus, scale; apply vec_ext; cbn [vx vy vz]; ring).
  assert (FD : forall w, plus (plus (embed o U V q0) (scale (x2 w) (dir U V e))) (scale (y2 w) (dir U V (sc s (perp e)))) = embed o U V (pl q0 (pl (sc (x2 w) e) (sc (y2 w) (sc s (perp e)))))) by (intros w; unfold embed, dir, plus, scale, pl, sc, perp; apply vec_ext; cbn [vx vy vz x2 y2]; ring).
  split; [|split].
  - intros q h. rewrite TO. eexists. split; [reflexivity|]. rewrite FROM, FD. f_equal. f_equal. cbn [x2 y2]. rewrite PT, !dot_plus_l, !dot_scale_l, !(N_dir U V), !(dir_dot U V FR), AR. rewrite !Rmult_0_r, !Rplus_0_r, RES. apply v2_ext; unfold pl, mi; cbn [x2 y2]; ring.
  - intros w. rewrite FROM. eexists. split; [reflexivity|]. rewrite TO, FD. f_equal. rewrite (emb_minus o U V), !(dir_dot U V FR). destruct F1 as (_ & A & B). rewrite !(dir_dot U V FR) in A, B.
    replace (mi (pl q0 (pl (sc (x2 w) e) (sc (y2 w) (sc s (perp e))))) q0) with (pl (sc (x2 w) e) (sc (y2 w) (sc s (perp e)))) by (apply v2_ext; unfold pl, mi; cbn [x2 y2]; ring).
    revert A B UE. generalize (sc s (perp e)). intros g A B UE. apply v2_ext; cbn [x2 y2].
    + transitivity (x2 w * dt e e + y2 w * dt e g); [unfold dt, pl, sc; cbn [x2 y2]; ring|rewrite UE, B; ring].
    + transitivity (x2 w * dt e g + y2 w * dt g g); [unfold dt, pl, sc; cbn [x2 y2]; ring|rewrite A, B; ring].
  - intros q q' w w'. rewrite !TO, !(emb_minus o U V), !(dir_dot U V FR), !AR. intros E1 E2. injection E1 as <-. injection E2 as <-. unfold dst, nrm. f_equal. unfold dt, mi, area2 in *. cbn [x2 y2] in *.
    set (u := x2 q - x2 q0). set (v := y2 q - y2 q0). set (u' := x2 q' - x2 q0). set (v' := y2 q' - y2 q0). replace (x2 q - x2 q') with (u - u') by (unfold u, u'; ring). replace (y2 q - y2 q') with (v - v') by (unfold v, v'; ring).
    transitivity ((x2 e * x2 e + s * s * (y2 e * y2 e)) * ((u - u') * (u - u')) + (s * s * (x2 e * x2 e) + y2 e * y2 e) * ((v - v') * (v - v')) + 2 * (1 - s * s) * (x2 e * y2 e * ((u - u') * (v - v')))); [ring|]. rewrite S1, !Rmult_1_l, UE. ring.
Qed.
(** Everything the other functions need: the orientation s, the first axis e, the basis. *)
Lemma setup (o U V : pt) (q0 q1 : p2) (rest : list p2) : let ps := map (embed o U V) (q0 :: q1 :: rest) in let e := sc (/ dst q0 q1) (mi q1 q0) in frame U V -> spans (q0 :: q1 :: rest) -> eps6 < dst q0 q1 ->
  exists s, (s = 1 \/ s = -1) /\ s * s = 1 /\ dt e e = 1 /\ Poly_PlaneCCW ps = Some (facing o U V s) /\ Poly_BasisU ps = dir U V e /\ Poly_BasisV ps = dir U V (sc s (perp e)) /\ (ccw_polygon (q0 :: q1 :: rest) -> s = 1).
Proof.
  intros ps e FR SP L. destruct (C90_plane o U V _ FR SP) as (P & s & S & EP & EN & PN & _ & _ & _ & C1 & _). assert (S1 : s * s = 1) by (destruct S as [ -> | -> ]; ring). exists s.
  assert (PF : Poly_PlaneCCW ps = Some (facing o U V s)).
  { destruct (plane_R o U V FR _ SP) as (a & b & c & _ & _ & E). fold ps in E, EP. rewrite E in EP. injection EP as <-. unfold facing in *. cbn [pnormal] in PN. fold ps. rewrite E. now rewrite PN. }
  destruct (basis_R o U V FR q0 q1 rest s L S1 PF) as (BU & BV). assert (E0 : 0 < eps6) by (unfold eps6; lra). split; [exact S|]. split; [exact S1|]. split; [apply unit_e; lra|]. auto.
Qed.
(** IsPlanar measures the distance of every vertex from the plane of the first three. *)
Theorem C90_planar (p0 p1 p2 : pt) (rest : list pt) (eps : R) : let n := cross (minus p1 p0) (minus p2 p0) in
  (n <> origin -> (Poly_IsPlanar (p0 :: p1 :: p2 :: rest) eps = true <-> forall p, In p rest -> (dot n (minus p p0) / norm n) * (dot n (minus p p0) / norm n) <= eps)) /\
  (Poly_IsPlanar (p0 :: p1 :: p2 :: rest) 0 = true <-> forall p, In p rest -> dot n (minus p p0) = 0).
Proof.
  intros n. assert (G : forall e, Poly_IsPlanar (p0 :: p1 :: p2 :: rest) e = true <-> forall p, In p rest -> dot n (minus p p0) * dot n (minus p p0) <= e * dot n n).
  { intros e. unfold Poly_IsPlanar. cbv zeta. rewrite forallb_forall. change (@vsub R Num_R) with minus. change (@Cross R Num_R) with cross. change (@Dot R Num_R) with dot. fold n. rewrite LengthSq_R. change (@nltb R Num_R) with Rltb.
    split; intros H p I; specialize (H p I); [apply negb_true_iff, Rltb_false in H; exact H|apply negb_true_iff, Rltb_false; exact H]. }
  split.
  - intros NE. assert (P : 0 < dot n n) by (destruct (dot_pos n) as [K|K]; [exact K|symmetry in K; now apply dot_zero in K]). assert (NP : norm n * norm n = dot n n) by apply norm_sq. assert (NZ : norm n <> 0) by (intros Z; rewrite Z in NP; lra). rewrite G.
    assert (EQ : forall p, dot n (minus p p0) / norm n * (dot n (minus p p0) / norm n) = dot n (minus p p0) * dot n (minus p p0) / dot n n) by (intros p; rewrite <- NP; field; exact NZ).
    split; intros H p I; specialize (H p I); [rewrite EQ; apply (Rmult_le_reg_r (dot n n)); [exact P|]; unfold Rdiv; rewrite Rmult_assoc, Rinv_l by lra; lra|].
    rewrite EQ in H. apply (Rmult_le_compat_r (dot n n)) in H; [|lra]. unfold Rdiv in H. rewrite Rmult_assoc, Rinv_l in H by lra. lra.
  - rewrite G. split; intros H p I; specialize (H p I); nra.
Qed.
(** When the first three vertices are collinear every polygon is accepted. *)
Theorem C90_planar_refuted : exists ps : list pt, Poly_IsPlanar ps 0 = true /\ ~ exists n d, n <> origin /\ forall p, In p ps -> dot n p = d.
Proof.
  exists [V3 0 0 0; V3 1 0 0; V3 2 0 0; V3 0 1 0; V3 0 0 1]. split.
  - apply (proj2 (C90_planar (V3 0 0 0) (V3 1 0 0) (V3 2 0 0) [V3 0 1 0; V3 0 0 1] 0)). intros p I. cbn in I. destruct I as [<-|[<-|[]]]; unfold cross, dot, minus; cbn; ring.
  - intros (n & d & NE & H). apply NE. pose proof (H (V3 0 0 0)) as A. pose proof (H (V3 1 0 0)) as B. pose proof (H (V3 0 1 0)) as C. pose proof (H (V3 0 0 1)) as D. cbn in A, B, C, D.
    assert (E : forall v : pt, v = v) by auto. specialize (A (or_introl eq_refl)). specialize (B (or_intror (or_introl eq_refl))). specialize (C ltac:(auto)). specialize (D ltac:(auto 6)). unfold dot in *. cbn in *. apply vec_ext; unfold origin; cbn; lra.
Qed.
Example C90_witness : frame (V3 1 0 0) (V3 0 1 0) /\ spans [V2 0 0; V2 2 0; V2 2 2; V2 0 2] /\ ccw_polygon [V2 0 0; V2 2 0; V2 2 2; V2 0 2] /\ eps6 < dst (V2 0 0) (V2 2 0).
Proof.
  split; [exact xy_frame|]. split; [exists (V2 0 0), (V2 2 0), (V2 2 2); split; [now exists [], [], [], [V2 0 2]|unfold turn, area2, mi; cbn; rewrite Rabs_pos_eq; lra]|]. split.
  - repeat split.
    + repeat constructor; cbn; intros K; repeat (destruct K as [K|K]; [apply (f_equal (fun v => (x2 v, y2 v))) in K; cbn in K; injection K; intros; lra|]); exact K.
    + intros a b c I J. cbn in I, J. repeat (destruct I as [I|I]; [injection I as <- <-; repeat (destruct J as [J|J]; [injection J; intros; subst; try (unfold turn, area2, mi; cbn; lra); lra|]); destruct J|]). destruct I.
    + intros a b v I J. cbn in I, J. repeat (destruct I as [I|I]; [injection I as <- <-; repeat (destruct J as [J|J]; [subst; unfold turn, area2, mi; cbn; lra|]); destruct J|]). destruct I.
  - unfold dst. replace (nrm _) with 2; [unfold eps6; lra|]. unfold nrm, dt, mi. cbn. symmetry. apply sqrt_lem_1; lra.
Qed.
Print Assumptions C90_plane.
Print Assumptions C90_basis.
Print Assumptions C90_planar.
