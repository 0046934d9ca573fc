(** C81: Triangle::Intersects(Triangle). *)
From Coq Require Import Reals Lra Psatz Bool List Classical.
From Verif Require Import Num NumR ScalarModel ScalarProofs Vec3Model Vec2Model GeoTypes MatModel GMatProofs GeoSpec GeoLemmas Vec3Props AabbSpec LineModel LineSpec LineProofs LineProofs2 LineProps
  MatSpec MatProofs MatProofs2 PlaneModel PlaneSpec PlaneProps PlaneProps2 PlaneProps3 PlaneProps4 TriangleModel TriangleSpec TriangleProps TriangleProps2 SatTheory SatModel SatProps TriangleProps4.
Import ListNotations.
Open Scope R_scope.

(** The signed distance of p from the plane of t. *)
Definition above (t : triangle R) (p : pt) : R := volume (minus (tri_b t) (tri_a t)) (minus (tri_c t) (tri_a t)) (minus p (tri_a t)) / norm (cross (minus (tri_b t) (tri_a t)) (minus (tri_c t) (tri_a t))).
(** The planes of the two triangles are not nearly parallel. *)
Definition skew (t t' : triangle R) : Prop := Rabs (dot (nrm t) (nrm t')) < (1 - 3 / 1000000) * (norm (nrm t) * norm (nrm t')).
(** t' reaches the plane of t, and neither its corner b with a and c on opposite sides, nor b together with another corner, lies in that plane. *)
Definition clean (t t' : triangle R) : Prop := let h := above t in
  (exists p, in_triangle t' p /\ h p = 0) /\ (h (tri_b t') = 0 -> 0 < h (tri_a t') * h (tri_c t')).
(** All of t' lies more than 1e-4 to one side of the plane of t. *)
Definition clear_of (t t' : triangle R) : Prop := (forall p, in_triangle t' p -> tol < above t p) \/ (forall p, in_triangle t' p -> above t p < - tol).

Lemma vol_nrm a b c : volume a b c = dot (cross a b) c.
Proof. unfold volume, cross. gunf. ring. Qed.
Lemma nrm_pos t : proper_tri t -> 0 < norm (nrm t).
Proof. intros P. apply proper_nrm in P. destruct (norm_pos (nrm t)) as [H|H]; [exact H|]. symmetry in H. apply norm_zero in H. contradiction. Qed.
Lemma plane_R t : proper_tri t -> unitv (pnormal (Tri_PlaneCCW t)) /\ pnormal (Tri_PlaneCCW t) = scale (/ norm (nrm t)) (nrm t) /\ forall p, height (Tri_PlaneCCW t) p = above t p.
Proof.
  intros P. pose proof (nrm_pos t P) as L. unfold Tri_PlaneCCW, Plane_Set3. toG. change (@Length R Num_R) with norm. change (@Cross R Num_R) with cross.
  fold (nrm t).
  assert (E : vdivs (nrm t) (norm (nrm t)) = scale (/ norm (nrm t)) (nrm t)) by (unfold vdivs; rsimpl; gunf; apply vec_ext; cbn [vx vy vz]; field; lra). rewrite E. cbn [pnormal].
  split; [unfold unitv; rewrite dot_scale_l, dot_scale_r, <- norm_sq; field; lra|]. split; [reflexivity|].
  intros p. unfold height, above. cbn [pnormal pd]. fold (nrm t). rewrite !dot_scale_l. rewrite vol_nrm. fold (nrm t). rewrite dot_minus_r. field. lra.
Qed.
Lemma skew_crossing t t' : proper_tri t -> proper_tri t' -> skew t t' -> crossing (Tri_PlaneCCW t) (Tri_PlaneCCW t') /\ IsZero (Cross (pnormal (Tri_PlaneCCW t)) (pnormal (Tri_PlaneCCW t'))) = false.
Proof.
  intros P P' S. destruct (plane_R t P) as (U & E & _). destruct (plane_R t' P') as (U' & E' & _).
  pose proof (nrm_pos t P). pose proof (nrm_pos t' P').
  assert (C : Rabs (dot (pnormal (Tri_PlaneCCW t)) (pnormal (Tri_PlaneCCW t'))) < 1 - 3 / 1000000).
  { rewrite E, E', dot_scale_l, dot_scale_r, !Rabs_mult, !(Rabs_right (/ _)) by (left; now apply Rinv_0_lt_compat). unfold skew in S.
    apply Rmult_lt_reg_r with (norm (nrm t) * norm (nrm t')); [nra|]. eapply Rle_lt_trans; [|exact S]. right. field. lra. }
  split; [now split|]. apply IsZero_R. change (@Cross R Num_R) with cross. rewrite cross_sq. unfold unitv in U, U'. rewrite U, U'. set (c := dot _ _) in *.
  clearbody c. apply Rabs_def2 in C. nra.
Qed.
Lemma above_affine t s a b k : proper_tri t -> above t (along a (minus b a) s) = k -> (1 - s) * above t a + s * above t b = k.
Proof. intros P <-. pose proof (nrm_pos t P). unfold above. fold (nrm t). unfold along. rewrite !vol_nrm. fold (nrm t). rewrite !dot_minus_r, !dot_plus_r, !dot_scale_r, !dot_minus_r. field. lra. Qed.
Lemma above_bary t t' u v w : proper_tri t -> u + v + w = 1 -> above t (bary t' u v w) = u * above t (tri_a t') + v * above t (tri_b t') + w * above t (tri_c t').
Proof.
  intros P E. pose proof (nrm_pos t P). assert (Ew : w = 1 - u - v) by lra. subst w. unfold above. fold (nrm t). rewrite !vol_nrm. fold (nrm t). unfold bary.
  rewrite !dot_minus_r, !dot_plus_r, !dot_scale_r. field. lra.
Qed.
Lemma above_self t p : proper_tri t -> in_triangle t p -> above t p = 0.
Proof.
  intros P (u & v & w & _ & _ & _ & E & ->). change (above t (bary t u v w) = 0). rewrite above_bary by easy. assert (Ew : w = 1 - u - v) by lra. subst w.
  assert (Z : forall p, dot (nrm t) (minus p (tri_a t)) = 0 -> above t p = 0). { intros q H. unfold above. fold (nrm t). rewrite vol_nrm. fold (nrm t). rewrite H. unfold Rdiv. ring. }
  rewrite (Z (tri_a t)), (Z (tri_b t)), (Z (tri_c t)); [ring|..].
  - unfold nrm. rewrite (dot_comm (cross _ _)). apply cross_dot_r.
  - unfold nrm. rewrite (dot_comm (cross _ _)). apply cross_dot_l.
  - gunf. ring.
Qed.
(** The parameter at which the line of intersection is nearest to an edge which crosses the plane in one point. *)
Lemma pos_R (l : line R) (s : segment R) (x : pt) : unitv (ldir l) -> proper_seg s -> on_segment s x -> on_line l x -> (forall y, on_segment s y -> on_line l y -> y = x) ->
  along (lpos l) (ldir l) (snd (fst (Line_DistanceSeg l s))) = x.
Proof.
  intros U P S L N. pose proof (C43_line_segment l s U P) as G. unfold Line_DistanceSeg. destruct (Line_ClosestPointSeg l s) as [[c d] d2]. cbn [fst snd].
  destruct G as (_ & Ec & G). destruct G as (Gl & Gs & G). specialize (G x x L S). rewrite (proj2 (dist_zero x x) eq_refl) in G.
  assert (E : dist c (along (seg_a s) (minus (seg_b s) (seg_a s)) d2) = 0) by (pose proof (norm_pos (minus c (along (seg_a s) (minus (seg_b s) (seg_a s)) d2))) as Q; unfold dist in *; lra).
  apply dist_zero in E. rewrite <- Ec. apply N; [rewrite E; exact Gs|exact Gl].
Qed.
Definition meets t (s : segment R) (x : pt) : Prop := proper_seg s /\ on_segment s x /\ above t x = 0 /\ forall y, on_segment s y -> above t y = 0 -> y = x.
Lemma on_seg_flip a b p : on_segment (Seg a b) p <-> on_segment (Seg b a) p.
Proof. enough (G : forall a b, on_segment (Seg a b) p -> on_segment (Seg b a) p) by (split; apply G). clear. intros a b (s & S & ->). exists (1 - s). split; [lra|]. cbn [seg_a seg_b]. apply vec_ext; gunf; cbn [vx vy vz]; ring. Qed.
Lemma meets_flip t a b x : meets t (Seg a b) x -> meets t (Seg b a) x.
Proof. intros (P & S & Z & U). split; [intros E; apply P; cbn in *; now symmetry|]. split; [now apply on_seg_flip|]. split; [easy|]. intros y Y. apply U. now apply on_seg_flip. Qed.
Lemma on_seg_along a b p : on_segment (Seg a b) p <-> exists s, 0 <= s <= 1 /\ p = along a (minus b a) s.
Proof. split; intros (s & S & E); exists s; (split; [easy|]); rewrite E; cbn [seg_a seg_b]; apply vec_ext; unfold along; gunf; cbn [vx vy vz]; ring. Qed.
Lemma meets_at t a b : proper_tri t -> above t a <> above t b -> above t a * above t b <= 0 -> meets t (Seg a b) (along a (minus b a) (above t a / (above t a - above t b))).
Proof.
  intros P N S. set (ha := above t a) in *. set (hb := above t b) in *. split; [intros E; cbn in E; apply N; unfold ha, hb; now rewrite E|]. split.
  - apply on_seg_along. exists (ha / (ha - hb)). split; [|reflexivity]. split.
    + apply Rmult_le_reg_r with ((ha - hb) * (ha - hb)); [nra|]. replace (ha / (ha - hb) * ((ha - hb) * (ha - hb))) with (ha * (ha - hb)) by (field; lra). nra.
    + apply Rmult_le_reg_r with ((ha - hb) * (ha - hb)); [nra|]. replace (ha / (ha - hb) * ((ha - hb) * (ha - hb))) with (ha * (ha - hb)) by (field; lra). nra.
  - split.
    + pose proof (above_affine t (ha / (ha - hb)) a b _ P eq_refl) as E. rewrite <- E. fold ha hb. field. lra.
    + intros y Y Z. apply on_seg_along in Y. destruct Y as (s & _ & ->). apply (above_affine t s a b _ P) in Z. fold ha hb in Z. replace s with (ha / (ha - hb)); [reflexivity|].
      apply Rmult_eq_reg_r with (ha - hb); [|lra]. unfold Rdiv. rewrite Rmult_assoc, Rinv_l by lra. lra.
Qed.
Definition hull3 (x y z p : pt) : Prop := exists u v w, 0 <= u /\ 0 <= v /\ 0 <= w /\ u + v + w = 1 /\ p = plus (scale u x) (plus (scale v y) (scale w z)).
Lemma chord t x y z : proper_tri t -> let h := above t in (h y <> 0 /\ h x * h y <= 0 /\ h z * h y <= 0) \/ (h y = 0 /\ 0 < h x * h z) ->
  exists X Z, meets t (Seg x y) X /\ meets t (Seg z y) Z /\ forall p, (hull3 x y z p /\ h p = 0) <-> on_segment (Seg X Z) p.
Proof.
  intros P h A. assert (Nx : h x <> h y) by (intros E; destruct A as [(A & B & _)|(A & B)]; [rewrite E in B; nra|rewrite A in E; rewrite E in B; lra]).
  assert (Nz : h z <> h y) by (intros E; destruct A as [(A & _ & B)|(A & B)]; [rewrite E in B; nra|rewrite A in E; rewrite E in B; lra]).
  assert (Sx : h x * h y <= 0) by (destruct A as [(_ & B & _)|(A & _)]; [easy|rewrite A; lra]). assert (Sz : h z * h y <= 0) by (destruct A as [(_ & _ & B)|(A & _)]; [easy|rewrite A; lra]).
  exists (along x (minus y x) (h x / (h x - h y))), (along z (minus y z) (h z / (h z - h y))).
  pose proof (meets_at t x y P Nx Sx) as MX. pose proof (meets_at t z y P Nz Sz) as MZ. split; [exact MX|]. split; [exact MZ|].
  fold h in MX, MZ.
  assert (AB : forall u v w, u + v + w = 1 -> h (plus (scale u x) (plus (scale v y) (scale w z))) = u * h x + v * h y + w * h z) by (intros u v w E; apply (above_bary t (Tri x y z) u v w P E)).
  assert (BX : 0 <= h x / (h x - h y) <= 1).
  { destruct MX as (_ & S & _). split.
    + apply Rmult_le_reg_r with ((h x - h y) * (h x - h y)); [nra|]. replace (h x / (h x - h y) * ((h x - h y) * (h x - h y))) with (h x * (h x - h y)) by (field; lra). nra.
    + apply Rmult_le_reg_r with ((h x - h y) * (h x - h y)); [nra|]. replace (h x / (h x - h y) * ((h x - h y) * (h x - h y))) with (h x * (h x - h y)) by (field; lra). nra. }
  assert (BZ : 0 <= h z / (h z - h y) <= 1).
  { split.
    + apply Rmult_le_reg_r with ((h z - h y) * (h z - h y)); [nra|]. replace (h z / (h z - h y) * ((h z - h y) * (h z - h y))) with (h z * (h z - h y)) by (field; lra). nra.
    + apply Rmult_le_reg_r with ((h z - h y) * (h z - h y)); [nra|]. replace (h z / (h z - h y) * ((h z - h y) * (h z - h y))) with (h z * (h z - h y)) by (field; lra). nra. }
  clear MX MZ. intros p. rewrite on_seg_along. split.
  - intros ((u & v & w & Hu & Hv & Hw & E & ->) & Z). rewrite (AB u v w E) in Z. destruct A as [(A & _ & _)|(A & B)].
    + exists (w * (h y - h z) / h y). assert (K : u * (h y - h x) / h y + w * (h y - h z) / h y = 1) by (apply Rmult_eq_reg_r with (h y); [|easy]; replace ((u * (h y - h x) / h y + w * (h y - h z) / h y) * h y) with (u * (h y - h x) + w * (h y - h z)) by (now field); nra).
      assert (Q : forall k m, 0 <= k -> m * h y <= 0 -> 0 <= k * (h y - m) / h y).
      { intros k m Hk Hm. apply Rmult_le_reg_r with (h y * h y); [nra|]. replace (k * (h y - m) / h y * (h y * h y)) with (k * (h y * h y - m * h y)) by (now field). nra. }
      pose proof (Q u (h x) Hu Sx) as Q1. pose proof (Q w (h z) Hw Sz) as Q2. split; [lra|].
      assert (Eu : u = (1 - w * (h y - h z) / h y) * (1 - h x / (h x - h y))). { replace (1 - w * (h y - h z) / h y) with (u * (h y - h x) / h y) by lra. field. split; (assumption || lra). }
      assert (Ew : w = (w * (h y - h z) / h y) * (1 - h z / (h z - h y))) by (field; split; (assumption || lra)).
      set (l := w * (h y - h z) / h y) in *. set (al := h x / (h x - h y)) in *. set (be := h z / (h z - h y)) in *. clearbody l al be. assert (Ev : v = 1 - u - w) by lra.
      rewrite Ev. apply vec_ext; unfold along; gunf; cbn [vx vy vz]; rewrite Ew at 1; rewrite Eu; replace w with (l * (1 - be)) by (now symmetry); ring.
    + exists 0. split; [lra|]. rewrite A in *. assert (u = 0 /\ w = 0) as [-> ->].
      { assert (H1 : u * h x + w * h z = 0) by lra. assert (H2 : u * (h x * h z) + w * (h z * h z) = 0) by nra. assert (H3 : u * (h x * h x) + w * (h x * h z) = 0) by nra.
        assert (0 < h z * h z) by nra. assert (0 < h x * h x) by nra. split; nra. }
      assert (v = 1) by lra. subst v. apply vec_ext; unfold along; gunf; cbn [vx vy vz]; field; lra.
  - intros (s & S & ->). set (al := h x / (h x - h y)) in *. set (be := h z / (h z - h y)) in *.
    assert (EE : along (along x (minus y x) al) (minus (along z (minus y z) be) (along x (minus y x) al)) s =
      plus (scale ((1 - s) * (1 - al)) x) (plus (scale ((1 - s) * al + s * be) y) (scale (s * (1 - be)) z))) by (apply vec_ext; unfold along; gunf; cbn [vx vy vz]; ring).
    rewrite EE. split.
    + exists ((1 - s) * (1 - al)), ((1 - s) * al + s * be), (s * (1 - be)). repeat split; nra.
    + rewrite AB by ring. unfold al, be. field. split; lra.
Qed.
Lemma hull_tri x y z p : hull3 x y z p <-> in_triangle (Tri x y z) p.
Proof. reflexivity. Qed.
Lemma hull_perm x y z p : hull3 x y z p -> hull3 x z y p /\ hull3 y x z p /\ hull3 z y x p.
Proof. intros (u & v & w & Hu & Hv & Hw & E & ->). split; [exists u, w, v|split; [exists v, u, w|exists w, v, u]]; repeat split; try lra; apply vec_ext; gunf; cbn [vx vy vz]; ring. Qed.
(** The two edges chosen bound the part of the triangle which lies in the plane. *)
Lemma find_chord t t' : proper_tri t -> clean t t' -> let '(s1, s2) := FindIntersectingLineSegments t' (above t (tri_a t')) (above t (tri_b t')) (above t (tri_c t')) in
  exists X Z, meets t s1 X /\ meets t s2 Z /\ forall p, (in_triangle t' p /\ above t p = 0) <-> on_segment (Seg X Z) p.
Proof.
  destruct t' as [a b c]. intros P ((q & Q & Hq) & N). cbn [tri_a tri_b tri_c] in *. unfold FindIntersectingLineSegments. set (h := above t) in *.
  destruct Q as (u & v & w & Hu & Hv & Hw & E & ->). assert (AB := above_bary t (Tri a b c) u v w P E). unfold bary in AB. cbn [tri_a tri_b tri_c] in *. fold h in AB. rewrite Hq in AB. clear Hq.
  assert (SG : forall x y z k l m, 0 <= k -> 0 <= l -> 0 <= m -> k + l + m = 1 -> 0 = k * x + l * y + m * z -> 0 < x * y -> x * z <= 0 /\ y * z <= 0).
  { clear. intros x y z k l m K L M S E X. assert (X2 : 0 < x * x) by nra. assert (Y2 : 0 < y * y) by nra.
    assert (XZ : x * z <= 0).
    { apply Rnot_lt_le. intros Y. assert (A : k * (x * x) + l * (x * y) + m * (x * z) = 0) by (transitivity (x * (k * x + l * y + m * z)); [ring|rewrite <- E; ring]).
      pose proof (Rmult_le_pos k (x * x) K (Rlt_le _ _ X2)). pose proof (Rmult_le_pos l (x * y) L (Rlt_le _ _ X)). pose proof (Rmult_le_pos m (x * z) M (Rlt_le _ _ Y)).
      assert (A1 : k * (x * x) = 0) by lra. assert (A2 : l * (x * y) = 0) by lra. assert (A3 : m * (x * z) = 0) by lra. apply Rmult_integral in A1, A2, A3. lra. }
    split; [exact XZ|]. apply Rnot_lt_le. intros Y. assert (0 < (x * y) * (y * z)) by (now apply Rmult_lt_0_compat). assert ((x * y) * (y * z) = (y * y) * (x * z)) by ring. nra. }
  rsimpl. destruct (Rltb_spec 0 (h a * h b)) as [L1|L1]; [|destruct (Rltb_spec 0 (h b * h c)) as [L2|L2]].
  - destruct (SG (h a) (h b) (h c) u v w) as [S1 S2]; try lra. destruct (chord t a c b P) as (X & Z & M1 & M2 & K).
    { fold h. destruct (Req_dec (h c) 0) as [Z|Z]; [right; split; [easy|exact L1]|left; tauto]. }
    exists X, Z. split; [exact M1|]. split; [exact M2|]. intros p. rewrite <- K. split; intros [I J]; (split; [|exact J]); apply hull_perm in I; apply I.
  - destruct (SG (h b) (h c) (h a) v w u) as [S1 S2]; try lra. destruct (chord t b a c P) as (X & Z & M1 & M2 & K).
    { fold h. destruct (Req_dec (h a) 0) as [Z|Z]; [right; split; [easy|exact L2]|left; tauto]. }
    exists X, Z. split; [now apply meets_flip|]. split; [now apply meets_flip|]. intros p. rewrite <- K. split; intros [I J]; (split; [|exact J]); apply hull_perm in I; apply I.
  - destruct (chord t a b c P) as (X & Z & M1 & M2 & K).
    { fold h. destruct (Req_dec (h b) 0) as [Z|Z]; [right; split; [easy|now apply N]|left]. rewrite (Rmult_comm (h c)). tauto. }
    exists X, Z. split; [exact M1|]. split; [now apply meets_flip|]. intros p. rewrite <- K. reflexivity.
Qed.
Lemma along_inj o d x y : unitv d -> along o d x = along o d y -> x = y.
Proof.
  intros U E. assert (K : dot (minus (along o d x) o) d = dot (minus (along o d y) o) d) by now rewrite E. unfold along in K.
  assert (G : forall s, dot (minus (plus o (scale s d)) o) d = s * dot d d) by (intros s; gunf; ring). rewrite !G in K. unfold unitv in U. rewrite U in K. lra.
Qed.
Lemma seg_interval o d x y p : on_segment (Seg (along o d x) (along o d y)) p <-> exists z, Rmin x y <= z <= Rmax x y /\ p = along o d z.
Proof.
  rewrite on_seg_along. split.
  - intros (s & S & ->). exists ((1 - s) * x + s * y). split; [|apply vec_ext; unfold along; gunf; cbn [vx vy vz]; ring]. unfold Rmin, Rmax. destruct Rle_dec; nra.
  - intros (z & Z & ->). destruct (Req_dec x y) as [<-|N].
    + exists 0. split; [lra|]. assert (z = x) by (unfold Rmin, Rmax in Z; destruct Rle_dec; lra). subst z. apply vec_ext; unfold along; gunf; cbn [vx vy vz]; ring.
    + exists ((z - x) / (y - x)). split.
      * unfold Rmin, Rmax in Z. destruct Rle_dec; (split; [apply Rmult_le_reg_r with ((y - x) * (y - x)); [nra|]|apply Rmult_le_reg_r with ((y - x) * (y - x)); [nra|]]); replace ((z - x) / (y - x) * ((y - x) * (y - x))) with ((z - x) * (y - x)) by (field; lra); nra.
      * apply vec_ext; unfold along; gunf; cbn [vx vy vz]; field; lra.
Qed.
Definition tri_edge (t : triangle R) (s : segment R) : Prop := forall p, on_segment s p -> in_triangle t p.
Lemma find_edges t da db dc : let '(s1, s2) := FindIntersectingLineSegments t da db dc in tri_edge t s1 /\ tri_edge t s2.
Proof.
  destruct t as [a b c]. unfold FindIntersectingLineSegments.
  assert (E1 : tri_edge (Tri a b c) (Seg a b)) by (intros p (s & S & ->); exists (1 - s), s, 0; repeat split; try lra; apply vec_ext; gunf; cbn [vx vy vz seg_a seg_b tri_a tri_b tri_c]; ring).
  assert (E2 : tri_edge (Tri a b c) (Seg b c)) by (intros p (s & S & ->); exists 0, (1 - s), s; repeat split; try lra; apply vec_ext; gunf; cbn [vx vy vz seg_a seg_b tri_a tri_b tri_c]; ring).
  assert (E3 : tri_edge (Tri a b c) (Seg a c)) by (intros p (s & S & ->); exists (1 - s), 0, s; repeat split; try lra; apply vec_ext; gunf; cbn [vx vy vz seg_a seg_b tri_a tri_b tri_c]; ring).
  destruct (_ >? _)%num; [easy|]. destruct (_ >? _)%num; easy.
Qed.
Lemma reaches t t' : proper_tri t -> (exists p, in_triangle t' p /\ above t p = 0) ->
  ((Max (Max (above t (tri_a t')) (above t (tri_b t'))) (above t (tri_c t')) <? - nlit 1%Z 10000%positive) || (Min (Min (above t (tri_a t')) (above t (tri_b t'))) (above t (tri_c t')) >? nlit 1%Z 10000%positive))%num = false.
Proof.
  intros P (p & (u & v & w & Hu & Hv & Hw & E & ->) & Z). pose proof (above_bary t t' u v w P E) as AB. unfold bary in AB. rewrite Z in AB. rewrite !Max_R, !Min_R, nlit_R. rsimpl. replace (IZR 1 / IZR (Z.pos 10000)) with tol by (unfold tol; lra).
  assert (T : 0 < tol) by (unfold tol; lra). set (x := above t (tri_a t')) in *. set (y := above t (tri_b t')) in *. set (z := above t (tri_c t')) in *. clearbody x y z.
  apply orb_false_iff. rewrite !Rltb_false. unfold Rmax, Rmin. split; repeat destruct Rle_dec; nra.
Qed.
Lemma tri_tri_run t t' : proper_tri t -> proper_tri t' -> skew t t' -> (exists p, in_triangle t' p /\ above t p = 0) -> (exists p, in_triangle t p /\ above t' p = 0) ->
  let '(s1, s2) := FindIntersectingLineSegments t (above t' (tri_a t)) (above t' (tri_b t)) (above t' (tri_c t)) in
  let '(r1, r2) := FindIntersectingLineSegments t' (above t (tri_a t')) (above t (tri_b t')) (above t (tri_c t')) in
  forall X1 Z1 X2 Z2, meets t' s1 X1 -> meets t' s2 Z1 -> meets t r1 X2 -> meets t r2 Z2 ->
  (fst (Tri_IntersectsTri t t') = true <-> exists p, on_segment (Seg X1 Z1) p /\ on_segment (Seg X2 Z2) p) /\
  (fst (Tri_IntersectsTri t t') = true <-> snd (Tri_IntersectsTri t t') <> None) /\
  (forall s, snd (Tri_IntersectsTri t t') = Some s -> forall p, on_segment s p <-> on_segment (Seg X1 Z1) p /\ on_segment (Seg X2 Z2) p).
Proof.
  intros P P' S R1 R2. destruct (skew_crossing t t' P P' S) as [C NZ]. destruct (C41_two_planes _ _ C) as (l & EL & U & L).
  destruct (plane_R t P) as (_ & _ & H1). destruct (plane_R t' P') as (_ & _ & H2).
  assert (LA : forall p, on_line l p <-> above t p = 0 /\ above t' p = 0).
  { intros p. rewrite L, <- H1, <- H2. unfold on_plane, height. split; intros [? ?]; split; lra. }
  pose proof (find_edges t (above t' (tri_a t)) (above t' (tri_b t)) (above t' (tri_c t))) as F1. pose proof (find_edges t' (above t (tri_a t')) (above t (tri_b t')) (above t (tri_c t'))) as F2.
  unfold Tri_IntersectsTri. rewrite NZ. cbn [negb]. cbv zeta. rewrite (SD_R (Tri_PlaneCCW t) (tri_a t')), (SD_R (Tri_PlaneCCW t) (tri_b t')), (SD_R (Tri_PlaneCCW t) (tri_c t')), (SD_R (Tri_PlaneCCW t') (tri_a t)), (SD_R (Tri_PlaneCCW t') (tri_b t)), (SD_R (Tri_PlaneCCW t') (tri_c t)).
  rewrite !H1, !H2. rewrite (reaches t t' P R1), (reaches t' t P' R2), EL.
  destruct (FindIntersectingLineSegments t _ _ _) as [s1 s2]. destruct (FindIntersectingLineSegments t' _ _ _) as [r1 r2]. destruct F1 as [Fs1 Fs2], F2 as [Fr1 Fr2].
  intros X1 Z1 X2 Z2 M1 M2 N1 N2.
  assert (PS : forall t0 t1 s x, proper_tri t0 -> (forall p, on_line l p <-> above t0 p = 0 /\ above t1 p = 0) -> tri_edge t0 s -> meets t1 s x -> along (lpos l) (ldir l) (snd (fst (Line_DistanceSeg l s))) = x).
  { intros t0 t1 s x Q K F (M & On & Z & Un). apply pos_R; [exact U|exact M|exact On| |].
    - apply K. split; [apply above_self; [exact Q|now apply F]|exact Z].
    - intros y Y1 Y2. apply Un; [exact Y1|]. now apply K. }
  assert (LB : forall p, on_line l p <-> above t' p = 0 /\ above t p = 0) by (intros p; rewrite LA; tauto).
  pose proof (PS t t' s1 X1 P LA Fs1 M1) as E1. pose proof (PS t t' s2 Z1 P LA Fs2 M2) as E2. pose proof (PS t' t r1 X2 P' LB Fr1 N1) as E3. pose proof (PS t' t r2 Z2 P' LB Fr2 N2) as E4.
  set (x1 := snd (fst (Line_DistanceSeg l s1))) in *. set (z1 := snd (fst (Line_DistanceSeg l s2))) in *. set (x2 := snd (fst (Line_DistanceSeg l r1))) in *. set (z2 := snd (fst (Line_DistanceSeg l r2))) in *. clearbody x1 z1 x2 z2.
  rewrite <- E1, <- E2, <- E3, <- E4. clear - U. rsimpl.
  assert (SW : forall x z : R, (if Rltb z x then (z, x) else (x, z)) = (Rmin x z, Rmax x z)) by (intros x z; destruct (Rltb_spec z x); unfold Rmin, Rmax; destruct Rle_dec; f_equal; lra).
  rewrite (SW x1 z1), (SW x2 z2). rewrite Max_R, Min_R, !Line_GetPoint_R.
  assert (MM : forall x y p q : R, x <= y -> (Rmax x p <= Rmin y q -> exists z, x <= z <= y /\ p <= z <= q)).
  { intros x y p q XY K. exists (Rmax x p). unfold Rmax, Rmin in *. repeat destruct Rle_dec; lra. }
  assert (O1 : Rmin x1 z1 <= Rmax x1 z1) by (unfold Rmin, Rmax; destruct Rle_dec; lra).
  assert (BOTH : forall p, (on_segment (Seg (along (lpos l) (ldir l) x1) (along (lpos l) (ldir l) z1)) p /\ on_segment (Seg (along (lpos l) (ldir l) x2) (along (lpos l) (ldir l) z2)) p) <->
     exists z, Rmax (Rmin x1 z1) (Rmin x2 z2) <= z <= Rmin (Rmax x1 z1) (Rmax x2 z2) /\ p = along (lpos l) (ldir l) z).
  { intros p. rewrite !seg_interval. split.
    - intros [(z & Hz & ->) (z' & Hz' & E)]. apply along_inj in E; [|exact U]. subst z'. exists z. split; [|reflexivity]. split; [now apply Rmax_lub|now apply Rmin_glb].
    - intros (z & (Hz1 & Hz2) & ->). pose proof (Rmax_l (Rmin x1 z1) (Rmin x2 z2)). pose proof (Rmax_r (Rmin x1 z1) (Rmin x2 z2)). pose proof (Rmin_l (Rmax x1 z1) (Rmax x2 z2)). pose proof (Rmin_r (Rmax x1 z1) (Rmax x2 z2)).
      split; exists z; (split; [lra|reflexivity]). }
  destruct (Rleb_spec (Rmax (Rmin x1 z1) (Rmin x2 z2)) (Rmin (Rmax x1 z1) (Rmax x2 z2))) as [K|K]; cbn [fst snd].
  - split; [split; [intros _|easy]|split; [split; [discriminate|easy]|]].
    + exists (along (lpos l) (ldir l) (Rmax (Rmin x1 z1) (Rmin x2 z2))). apply BOTH. eexists. split; [|reflexivity]. lra.
    + intros s E. injection E as <-. intros p. rewrite BOTH, seg_interval. rewrite (Rmin_left _ _ K), (Rmax_right _ _ K). reflexivity.
  - split; [split; [easy|]|split; [split; [easy|intros N; now elim N]|easy]]. intros (p & H). apply BOTH in H. destruct H as (z & Hz & _). lra.
Qed.
(** ** C81: the triangles' planes cross. *)
Theorem C81_crossing (t t' : triangle R) : proper_tri t -> proper_tri t' -> skew t t' -> clean t t' -> clean t' t ->
  (fst (Tri_IntersectsTri t t') = true <-> exists p, in_triangle t p /\ in_triangle t' p) /\
  (fst (Tri_IntersectsTri t t') = true <-> snd (Tri_IntersectsTri t t') <> None) /\
  (forall s, snd (Tri_IntersectsTri t t') = Some s -> forall p, on_segment s p <-> in_triangle t p /\ in_triangle t' p).
Proof.
  intros P P' S C C'. pose proof (tri_tri_run t t' P P' S (proj1 C) (proj1 C')) as G. pose proof (find_chord t t' P C) as F. pose proof (find_chord t' t P' C') as F'.
  destruct (FindIntersectingLineSegments t _ _ _) as [s1 s2]. destruct (FindIntersectingLineSegments t' _ _ _) as [r1 r2].
  destruct F as (X2 & Z2 & M2 & N2 & K2). destruct F' as (X1 & Z1 & M1 & N1 & K1). specialize (G X1 Z1 X2 Z2 M1 N1 M2 N2).
  assert (B : forall p, (on_segment (Seg X1 Z1) p /\ on_segment (Seg X2 Z2) p) <-> in_triangle t p /\ in_triangle t' p).
  { intros p. rewrite <- K1, <- K2. split; [tauto|]. intros [I I']. pose proof (above_self t p P I). pose proof (above_self t' p P' I'). tauto. }
  destruct G as (G1 & G2 & G3). split; [rewrite G1; split; intros (p & H); exists p; now apply B|]. split; [exact G2|]. intros s E p. rewrite (G3 s E). apply B.
Qed.
Print Assumptions C81_crossing.
Theorem C81_apart (t t' : triangle R) : proper_tri t -> proper_tri t' -> skew t t' -> clear_of t t' \/ clear_of t' t ->
  Tri_IntersectsTri t t' = (false, None) /\ forall p, in_triangle t p -> in_triangle t' p -> False.
Proof.
  intros P P' S C. destruct (skew_crossing t t' P P' S) as [_ NZ]. destruct (plane_R t P) as (_ & _ & H1). destruct (plane_R t' P') as (_ & _ & H2). split.
  - assert (K : forall u u' : triangle R, clear_of u u' ->
      ((Max (Max (above u (tri_a u')) (above u (tri_b u'))) (above u (tri_c u')) <? - nlit 1%Z 10000%positive) || (Min (Min (above u (tri_a u')) (above u (tri_b u'))) (above u (tri_c u')) >? nlit 1%Z 10000%positive))%num = true).
    { intros u u' K. rewrite !Max_R, !Min_R, nlit_R. rsimpl. replace (IZR 1 / IZR (Z.pos 10000)) with tol by (unfold tol; lra).
      apply orb_true_iff. rewrite !Rltb_true. destruct K as [K|K]; [right|left].
      - repeat apply Rmin_glb_lt; apply K, vertex_in; unfold vertex_of; tauto.
      - repeat apply Rmax_lub_lt; apply K, vertex_in; unfold vertex_of; tauto. }
    unfold Tri_IntersectsTri. rewrite NZ. cbn [negb]. cbv zeta. rewrite (SD_R (Tri_PlaneCCW t) (tri_a t')), (SD_R (Tri_PlaneCCW t) (tri_b t')), (SD_R (Tri_PlaneCCW t) (tri_c t')), (SD_R (Tri_PlaneCCW t') (tri_a t)), (SD_R (Tri_PlaneCCW t') (tri_b t)), (SD_R (Tri_PlaneCCW t') (tri_c t)).
    rewrite !H1, !H2. destruct C as [C|C]; [rewrite (K t t' C); reflexivity|]. destruct (_ || _); [reflexivity|]. rewrite (K t' t C). reflexivity.
  - intros p I I'. pose proof (above_self t p P I) as Z. pose proof (above_self t' p P' I') as Z'. assert (0 < tol) by (unfold tol; lra). destruct C as [[C|C]|[C|C]]; [specialize (C p I')|specialize (C p I')|specialize (C p I)|specialize (C p I)]; lra.
Qed.
Print Assumptions C81_apart.
(** A corner b exactly in the other plane, with a and c on opposite sides: both edges chosen end in b, and the intersection is missed. *)
Definition kite1 : triangle R := Tri (V3 0 0 1) (V3 0 0 0) (V3 2 0 (-1)).
Definition kite2 : triangle R := Tri (V3 (1 / 2) (-1) 0) (V3 (1 / 2) 1 0) (V3 2 1 0).
Lemma norm_is a k : 0 <= k -> dot a a = k * k -> norm a = k.
Proof. intros K E. unfold norm. rewrite E. apply sqrt_square. exact K. Qed.
Lemma kites : proper_tri kite1 /\ proper_tri kite2 /\ (forall p, above kite1 p = - vy p) /\ (forall p, above kite2 p = - vz p) /\ skew kite1 kite2.
Proof.
  assert (N1 : nrm kite1 = V3 0 (-2) 0) by (apply vec_ext; unfold nrm, kite1, cross; gunf; cbn; ring). assert (N2 : nrm kite2 = V3 0 0 (-3)) by (apply vec_ext; unfold nrm, kite2, cross; gunf; cbn; lra).
  assert (L1 : norm (nrm kite1) = 2) by (rewrite N1; apply norm_is; [lra|gunf; cbn; ring]). assert (L2 : norm (nrm kite2) = 3) by (rewrite N2; apply norm_is; [lra|gunf; cbn; ring]).
  split; [apply proper_nrm; rewrite N1; intros E; injection E; lra|]. split; [apply proper_nrm; rewrite N2; intros E; injection E; lra|].
  split; [intros p; unfold above; rewrite vol_nrm; fold (nrm kite1); rewrite L1, N1; unfold kite1; gunf; cbn; field|].
  split; [intros p; unfold above; rewrite vol_nrm; fold (nrm kite2); rewrite L2, N2; unfold kite2; gunf; cbn; field|].
  unfold skew. rewrite L1, L2, N1, N2. replace (dot (V3 0 (-2) 0) (V3 0 0 (-3))) with 0 by (gunf; cbn; ring). rewrite Rabs_R0. lra.
Qed.
Theorem C81_corner_refuted : proper_tri kite1 /\ proper_tri kite2 /\ skew kite1 kite2 /\ (exists p, in_triangle kite1 p /\ in_triangle kite2 p) /\ Tri_IntersectsTri kite1 kite2 = (false, None).
Proof.
  destruct kites as (P1 & P2 & A1 & A2 & S). split; [exact P1|]. split; [exact P2|]. split; [exact S|].
  assert (I1 : in_triangle kite1 (V3 (3 / 4) 0 0)) by (exists (3 / 8), (2 / 8), (3 / 8); repeat split; try lra; apply vec_ext; unfold kite1, plus, scale; cbn; lra).
  assert (I2 : in_triangle kite2 (V3 (3 / 4) 0 0)) by (exists (1 / 2), (2 / 6), (1 / 6); repeat split; try lra; apply vec_ext; unfold kite2, plus, scale; cbn; lra).
  split; [now exists (V3 (3 / 4) 0 0)|].
  pose proof (tri_tri_run kite1 kite2 P1 P2 S) as G.
  assert (F1 : FindIntersectingLineSegments kite1 (above kite2 (tri_a kite1)) (above kite2 (tri_b kite1)) (above kite2 (tri_c kite1)) = (Seg (tri_a kite1) (tri_b kite1), Seg (tri_b kite1) (tri_c kite1))).
  { rewrite !A2. unfold FindIntersectingLineSegments, kite1. cbn [tri_a tri_b tri_c vx vy vz]. rsimpl. rewrite (proj2 (Rltb_false _ _)) by lra. rewrite (proj2 (Rltb_false _ _)) by lra. reflexivity. }
  assert (F2 : FindIntersectingLineSegments kite2 (above kite1 (tri_a kite2)) (above kite1 (tri_b kite2)) (above kite1 (tri_c kite2)) = (Seg (tri_a kite2) (tri_b kite2), Seg (tri_a kite2) (tri_c kite2))).
  { rewrite !A1. unfold FindIntersectingLineSegments, kite2. cbn [tri_a tri_b tri_c vx vy vz]. rsimpl. rewrite (proj2 (Rltb_false _ _)) by lra. rewrite (proj2 (Rltb_true _ _)) by lra. reflexivity. }
  rewrite F1, F2 in G. clear F1 F2.
  assert (MT : forall t a b, proper_tri t -> above t a <> above t b -> above t a * above t b <= 0 -> forall x, x = along a (minus b a) (above t a / (above t a - above t b)) -> meets t (Seg a b) x) by (intros t a b P N Q x ->; now apply meets_at).
  assert (R1 : exists p, in_triangle kite2 p /\ above kite1 p = 0) by (exists (V3 (3 / 4) 0 0); split; [exact I2|rewrite A1; cbn; ring]).
  assert (R2 : exists p, in_triangle kite1 p /\ above kite2 p = 0) by (exists (V3 (3 / 4) 0 0); split; [exact I1|rewrite A2; cbn; ring]).
  specialize (G R1 R2 (V3 0 0 0) (V3 0 0 0) (V3 (1 / 2) 0 0) (V3 (5 / 4) 0 0)).
  destruct G as (G1 & G2 & _).
  1,2: apply MT; [exact P2|..]; rewrite !A2; unfold kite1; cbn [tri_a tri_b tri_c vz]; try lra; apply vec_ext; unfold along, plus, scale, minus; cbn; field.
  1,2: apply MT; [exact P1|..]; rewrite !A1; unfold kite2; cbn [tri_a tri_b tri_c vy]; try lra; apply vec_ext; unfold along, plus, scale, minus; cbn; field.
  destruct (Tri_IntersectsTri kite1 kite2) as [b o]. cbn [fst snd] in *. destruct b.
  - destruct (proj1 G1 eq_refl) as (p & (s & Hs & E) & (s' & Hs' & E')). rewrite E in E'. apply (f_equal vx) in E'. revert E'. cbn. nra.
  - destruct o; [|reflexivity]. assert (X : false = true) by (apply G2; discriminate). discriminate X.
Qed.
Print Assumptions C81_corner_refuted.
Example C81_crossing_witness : let t := Tri (V3 0 0 1) (V3 2 0 (-1)) (V3 0 0 0) in proper_tri t /\ proper_tri kite2 /\ skew t kite2 /\ clean t kite2 /\ clean kite2 t.
Proof.
  cbv zeta. set (t := Tri _ _ _). destruct kites as (_ & P2 & _ & A2 & _).
  assert (N1 : nrm t = V3 0 2 0) by (apply vec_ext; unfold nrm, t, cross; gunf; cbn; ring). assert (N2 : nrm kite2 = V3 0 0 (-3)) by (apply vec_ext; unfold nrm, kite2, cross; gunf; cbn; lra).
  assert (L1 : norm (nrm t) = 2) by (rewrite N1; apply norm_is; [lra|gunf; cbn; ring]). assert (L2 : norm (nrm kite2) = 3) by (rewrite N2; apply norm_is; [lra|gunf; cbn; ring]).
  assert (A1 : forall p, above t p = vy p) by (intros p; unfold above; rewrite vol_nrm; fold (nrm t); rewrite L1, N1; unfold t; gunf; cbn; field).
  split; [apply proper_nrm; rewrite N1; intros E; injection E; lra|]. split; [exact P2|].
  split; [unfold skew; rewrite L1, L2, N1, N2; replace (dot (V3 0 2 0) (V3 0 0 (-3))) with 0 by (gunf; cbn; ring); rewrite Rabs_R0; lra|].
  split; (split; [exists (V3 (3 / 4) 0 0); split|]).
  - exists (1 / 2), (2 / 6), (1 / 6). repeat split; try lra. apply vec_ext; unfold kite2, plus, scale; cbn; lra.
  - rewrite A1. reflexivity.
  - rewrite !A1. unfold kite2. cbn. lra.
  - exists (3 / 8), (3 / 8), (2 / 8). repeat split; try lra. apply vec_ext; unfold t, plus, scale; cbn; lra.
  - rewrite A2. cbn. ring.
  - rewrite !A2. unfold t. cbn. lra.
Qed.
