(** C82: the separating axis test of SAT.h is exact for boxes and triangles. *)
From Coq Require Import Reals Lra Psatz Bool List Classical.
From Verif Require Import Num NumR ScalarModel ScalarProofs Vec3Model Vec2Model GeoTypes MatModel GMatProofs GeoSpec GeoLemmas Vec3Props AabbSpec AabbModel AabbProps2 LineModel LineSpec LineProofs LineProofs2 LineProps
  MatSpec MatProofs MatProofs2 PlaneModel PlaneSpec PlaneProps PlaneProps2 PlaneProps3 PlaneProps4 TriangleModel TriangleSpec TriangleProps SatTheory SatModel.
Import ListNotations.
Open Scope R_scope.
Ltac Zify.zify_post_hook ::= idtac.

(** A shape that describes the set [S], the convex hull of [A]: the projections are the exact ranges. *)
Definition describes (s : shape (T := R)) (S : pt -> Prop) (A : list pt) : Prop :=
  convex_set S /\ A <> [] /\ (forall a, In a A -> S a) /\
  (forall n, let '(lo, hi) := sh_project s n in (forall p, S p -> lo <= dot n p <= hi) /\ (exists a, In a A /\ dot n a = lo) /\ (exists a, In a A /\ dot n a = hi)).
Lemma apart_iff a b SA SB A B n : describes a SA A -> describes b SB B -> (SAT_apart a b n = true <-> gap2 n A B).
Proof.
  intros (_ & _ & IA & PA) (_ & _ & IB & PB). specialize (PA n). specialize (PB n). unfold SAT_apart. destruct (sh_project a n) as [al ah], (sh_project b n) as [bl bh].
  destruct PA as (BA & (a1 & I1 & E1) & (a2 & I2 & E2)), PB as (BB & (b1 & J1 & G1) & (b2 & J2 & G2)). rsimpl. rewrite orb_true_iff, !Rltb_true. split.
  - intros [H|H]; [left|right]; intros x y X Y; [specialize (BA x (IA x X)); specialize (BB y (IB y Y))|specialize (BB x (IB x X)); specialize (BA y (IA y Y))]; lra.
  - intros [H|H]; [left; specialize (H a2 b1 I2 J1)|right; specialize (H b2 a1 J2 I1)]; lra.
Qed.
Lemma apart_disjoint a b SA SB A B n : describes a SA A -> describes b SB B -> SAT_apart a b n = true -> forall p, SA p -> SB p -> False.
Proof.
  intros (_ & _ & IA & PA) (_ & _ & IB & PB) H p P Q. specialize (PA n). specialize (PB n). unfold SAT_apart in H. destruct (sh_project a n) as [al ah], (sh_project b n) as [bl bh].
  destruct PA as (BA & _), PB as (BB & _). rsimpl. rewrite orb_true_iff, !Rltb_true in H. specialize (BA p P). specialize (BB p Q). lra.
Qed.
Lemma sat_true a b : SATIntersect a b = true <-> forall m, In m (sh_normals a) \/ In m (sh_normals b) \/ In m (crosses (sh_edges a) (sh_edges b)) -> SAT_apart a b m = false.
Proof.
  unfold SATIntersect.
  assert (X : forall l, existsb (SAT_apart a b) l = true <-> exists m, In m l /\ SAT_apart a b m = true) by (intros l; apply existsb_exists).
  assert (Y : existsb (fun e1 => existsb (fun e2 => SAT_apart a b (Cross e1 e2)) (sh_edges b)) (sh_edges a) = true <-> exists m, In m (crosses (sh_edges a) (sh_edges b)) /\ SAT_apart a b m = true).
  { rewrite existsb_exists. split.
    - intros (e & E & H). apply existsb_exists in H. destruct H as (f & F & H). exists (cross e f). split; [apply crosses_in; now exists e, f|exact H].
    - intros (m & M & H). apply crosses_in in M. destruct M as (e & f & E & F & ->). exists e. split; [easy|]. apply existsb_exists. now exists f. }
  destruct (existsb (SAT_apart a b) (sh_normals a)) eqn:E1.
  { split; [discriminate|]. intros H. apply X in E1. destruct E1 as (m & M & E). rewrite H in E by now left. discriminate. }
  destruct (existsb (SAT_apart a b) (sh_normals b)) eqn:E2.
  { split; [discriminate|]. intros H. apply X in E2. destruct E2 as (m & M & E). rewrite H in E by now right; left. discriminate. }
  set (ex := existsb _ (sh_edges a)) in *. clearbody ex. destruct ex.
  - split; [discriminate|]. intros H. destruct (proj1 Y eq_refl) as (m & M & E). rewrite H in E by now right; right. discriminate.
  - split; [|easy]. intros _ m M. apply not_true_is_false. intros E. destruct M as [M|[M|M]].
    + assert (false = true); [|discriminate]. rewrite <- E1. apply X. now exists m.
    + assert (false = true); [|discriminate]. rewrite <- E2. apply X. now exists m.
    + assert (false = true); [|discriminate]. apply Y. now exists m.
Qed.
(** Sound for all shapes: a "no" means disjoint. *)
Theorem sat_no a b SA SB A B : describes a SA A -> describes b SB B -> SATIntersect a b = false -> forall p, SA p -> SB p -> False.
Proof.
  intros DA DB H p P Q. apply not_true_iff_false in H. apply H, sat_true. intros m _. apply not_true_is_false. intros E. exact (apart_disjoint a b SA SB A B m DA DB E p P Q).
Qed.
Theorem sat_exact a b SA SB A B : describes a SA A -> describes b SB B -> axes_ok A (sh_normals a) (sh_edges a) -> axes_ok B (sh_normals b) (sh_edges b) -> span_with origin (fun c => In c (diffs A B)) ->
  (SATIntersect a b = true <-> exists p, SA p /\ SB p).
Proof.
  intros DA DB OA OB SP. pose proof DA as (CA & NA & IA & _). pose proof DB as (CB & NB & IB & _). split.
  - intros H. destruct (sat_general SA SB A B _ _ _ _ CA CB IA IB NA NB OA OB SP) as [P|(m & M & G)]; [exact P|]. rewrite sat_true in H. specialize (H m M). apply (apart_iff a b SA SB A B m DA DB) in G. congruence.
  - intros (p & P & Q). destruct (SATIntersect a b) eqn:E; [easy|]. exfalso. exact (sat_no a b SA SB A B DA DB E p P Q).
Qed.

(** Boxes. *)
Definition solid (b : aabb R) : Prop := vx (minPoint b) < vx (maxPoint b) /\ vy (minPoint b) < vy (maxPoint b) /\ vz (minPoint b) < vz (maxPoint b).
Lemma solid_ok b : solid b -> box_ok b. Proof. intros (A & B & C). repeat split; lra. Qed.
Definition bcenter (b : aabb R) : pt := scale (1 / 2) (plus (minPoint b) (maxPoint b)).
Definition bcorners (b : aabb R) : list pt := pcorners (bcenter b) (V3 1 0 0) (V3 0 1 0) (V3 0 0 1)
  ((vx (maxPoint b) - vx (minPoint b)) / 2) ((vy (maxPoint b) - vy (minPoint b)) / 2) ((vz (maxPoint b) - vz (minPoint b)) / 2).
Lemma ind_basis : independent (V3 1 0 0) (V3 0 1 0) (V3 0 0 1).
Proof. intros [x y z] A B C. unfold dot in *. cbn in *. apply vec_ext; unfold origin; cbn; lra. Qed.
Lemma nzv (v : pt) : vx v <> 0 \/ vy v <> 0 \/ vz v <> 0 -> v <> origin.
Proof. intros H ->. unfold origin in H. cbn in H. tauto. Qed.
Lemma box_axes b : solid b -> axes_ok (bcorners b) (AABB_UniqueFaceNormals b) (AABB_UniqueEdgeDirections b).
Proof.
  intros (L1 & L2 & L3). apply par_axes; try lra; [apply ind_basis|..]; try (apply nzv; cbn; lra); unfold dot; cbn; ring.
Qed.
Lemma bcorner_in b x : box_ok b -> In x (bcorners b) -> in_box b x.
Proof.
  intros (L1 & L2 & L3) H. apply pcorners_in in H. destruct H as (b1 & b2 & b3 & ->). unfold in_box, bcenter, pcorner. gunf. cbn. destruct b1, b2, b3; cbn; lra.
Qed.
Lemma bcorners_ne b : bcorners b <> []. Proof. discriminate. Qed.
Lemma box_describes b : box_ok b -> describes (AABB_shape b) (in_box b) (bcorners b).
Proof.
  intros O. split; [apply convex_box|]. split; [apply bcorners_ne|]. split; [intros a; now apply bcorner_in|]. intros n. cbn [AABB_shape sh_project].
  pose proof (C24_project_to_axis b n O) as H. rewrite (box_proj b n O) in *. cbv zeta beta iota in *. destruct H as (H & _). split; [exact H|].
  destruct O as (L1 & L2 & L3).
  assert (SX : forall x, exists s, sg s * x = Rabs x) by (intros x; unfold Rabs; destruct Rcase_abs; [exists false|exists true]; cbn; lra).
  destruct (SX (vx n)) as (s1 & E1), (SX (vy n)) as (s2 & E2), (SX (vz n)) as (s3 & E3).
  assert (SN : forall s, sg (negb s) = - sg s) by (intros []; cbn; lra).
  split; [exists (pcorner (bcenter b) (V3 1 0 0) (V3 0 1 0) (V3 0 0 1) ((vx (maxPoint b) - vx (minPoint b)) / 2) ((vy (maxPoint b) - vy (minPoint b)) / 2) ((vz (maxPoint b) - vz (minPoint b)) / 2) (negb s1) (negb s2) (negb s3))
    |exists (pcorner (bcenter b) (V3 1 0 0) (V3 0 1 0) (V3 0 0 1) ((vx (maxPoint b) - vx (minPoint b)) / 2) ((vy (maxPoint b) - vy (minPoint b)) / 2) ((vz (maxPoint b) - vz (minPoint b)) / 2) s1 s2 s3)];
  (split; [apply pcorners_in; now eexists _, _, _|]); rewrite pcorner_dot, ?SN, <- E1, <- E2, <- E3; unfold AABB_CenterPoint, AABB_HalfSize, AABB_Size, bcenter; vunf; unfold dot, plus, scale; cbn; field.
Qed.

(** Triangles. *)
Definition tcorners (t : triangle R) : list pt := [tri_a t; tri_b t; tri_c t].
Lemma tri_project_R t n : Tri_ProjectToAxis t n = (Rmin (dot n (tri_c t)) (Rmin (dot n (tri_b t)) (dot n (tri_a t))), Rmax (dot n (tri_c t)) (Rmax (dot n (tri_b t)) (dot n (tri_a t)))).
Proof. unfold Tri_ProjectToAxis. now rewrite !Min_R, !Max_R. Qed.
Lemma tri_describes t : describes (Tri_shape t) (in_triangle t) (tcorners t).
Proof.
  destruct (tri_corners t) as (Ta & Tb & Tc). split; [apply convex_tri|]. split; [discriminate|]. split.
  { intros a [<-|[<-|[<-|[]]]]; assumption. }
  intros n. cbn [Tri_shape sh_project]. rewrite tri_project_R. set (x := dot n (tri_a t)). set (y := dot n (tri_b t)). set (z := dot n (tri_c t)).
  assert (LO : (Rmin z (Rmin y x) = x \/ Rmin z (Rmin y x) = y \/ Rmin z (Rmin y x) = z) /\ Rmin z (Rmin y x) <= x /\ Rmin z (Rmin y x) <= y /\ Rmin z (Rmin y x) <= z).
  { unfold Rmin. repeat destruct Rle_dec; repeat split; lra || tauto. }
  assert (HI : (Rmax z (Rmax y x) = x \/ Rmax z (Rmax y x) = y \/ Rmax z (Rmax y x) = z) /\ x <= Rmax z (Rmax y x) /\ y <= Rmax z (Rmax y x) /\ z <= Rmax z (Rmax y x)).
  { unfold Rmax. repeat destruct Rle_dec; repeat split; lra || tauto. }
  set (lo := Rmin z (Rmin y x)) in *. set (hi := Rmax z (Rmax y x)) in *. clearbody lo hi. destruct LO as (L & L1 & L2 & L3), HI as (H & H1 & H2 & H3). split; [|split].
  - intros p (u & v & w & U & V & W & E & ->). rewrite !dot_plus_r, !dot_scale_r. fold x y z. clear L H. split; nra.
  - unfold tcorners. destruct L as [L|[L|L]]; [exists (tri_a t)|exists (tri_b t)|exists (tri_c t)]; (split; [cbn; tauto|now rewrite L]).
  - unfold tcorners. destruct H as [L'|[L'|L']]; [exists (tri_a t)|exists (tri_b t)|exists (tri_c t)]; (split; [cbn; tauto|now rewrite L']).
Qed.
Definition t0 (t : triangle R) := minus (tri_b t) (tri_a t).
Definition t1 (t : triangle R) := minus (tri_c t) (tri_a t).
Definition t2 (t : triangle R) := minus (tri_c t) (tri_b t).
Lemma nrm_t t : nrm t = cross (t0 t) (t1 t). Proof. reflexivity. Qed.
Lemma cross_o_l v : cross origin v = origin. Proof. apply vec_ext; unfold cross, origin; cbn; ring. Qed.
Lemma cross_o_r v : cross v origin = origin. Proof. apply vec_ext; unfold cross, origin; cbn; ring. Qed.
Lemma minus_self_o (v : pt) : minus v v = origin. Proof. apply vec_ext; gunf; unfold origin; cbn; ring. Qed.
Lemma edges_nz t : proper_tri t -> t0 t <> origin /\ t1 t <> origin /\ t2 t <> origin.
Proof.
  intros P. apply proper_nrm in P. rewrite nrm_t in P. repeat split; intros E; apply P.
  - now rewrite E, cross_o_l.
  - now rewrite E, cross_o_r.
  - assert (t1 t = t0 t) as ->; [|apply vec_ext; unfold cross, origin; cbn; ring]. unfold t0, t1, t2 in *. apply vec_ext; [apply (f_equal vx) in E|apply (f_equal vy) in E|apply (f_equal vz) in E]; gunf; unfold origin in E; cbn in E; lra.
Qed.
Lemma tri_ind t : proper_tri t -> independent (t0 t) (t1 t) (nrm t).
Proof.
  intros P w A B C. apply dot_zero. pose proof (nrm_pos t P) as N. assert (Z : cross w (nrm t) = origin).
  { rewrite nrm_t. transitivity (minus (scale (dot w (t1 t)) (t0 t)) (scale (dot w (t0 t)) (t1 t))); [apply vec_ext; unfold cross; gunf; ring|]. rewrite A, B. apply vec_ext; unfold origin; gunf; cbn; ring. }
  assert (Q : dot (cross w (nrm t)) (cross w (nrm t)) = 0) by (rewrite Z; apply dot_origin_r). rewrite cross_sq, C in Q. nra.
Qed.
Lemma dot_t n t : dot n (t0 t) = dot n (tri_b t) - dot n (tri_a t) /\ dot n (t1 t) = dot n (tri_c t) - dot n (tri_a t) /\ dot n (t2 t) = dot n (tri_c t) - dot n (tri_b t).
Proof. unfold t0, t1, t2. now rewrite !dot_minus_r. Qed.
Lemma tri_touch t n al (P : Prop) :
  (dot n (tri_a t) = al -> dot n (tri_b t) = al -> dot n (tri_c t) = al -> P) ->
  P \/ (exists e, In e [t0 t; t1 t; t2 t] /\ dot n e = 0 /\ forall a a', touched (tcorners t) n al a -> touched (tcorners t) n al a' -> exists k, minus a' a = scale k e) \/ one_corner (tcorners t) n al.
Proof.
  intros H. destruct (dot_t n t) as (D0 & D1 & D2).
  assert (K0 : forall v e : pt, minus v v = scale 0 e) by (intros; apply vec_ext; gunf; ring).
  assert (K1 : forall v u : pt, minus v u = scale 1 (minus v u)) by (intros; apply vec_ext; gunf; ring).
  assert (K2 : forall v u : pt, minus v u = scale (-1) (minus u v)) by (intros; apply vec_ext; gunf; ring).
  destruct (Req_dec (dot n (tri_a t)) al) as [Ea|Ea], (Req_dec (dot n (tri_b t)) al) as [Eb|Eb], (Req_dec (dot n (tri_c t)) al) as [Ec|Ec].
  - left. auto.
  - right; left. exists (t0 t). split; [cbn; tauto|]. split; [lra|]. intros a a' [[<-|[<-|[<-|[]]]] I] [[<-|[<-|[<-|[]]]] J]; try contradiction; unfold t0; eauto.
  - right; left. exists (t1 t). split; [cbn; tauto|]. split; [lra|]. intros a a' [[<-|[<-|[<-|[]]]] I] [[<-|[<-|[<-|[]]]] J]; try contradiction; unfold t1; eauto.
  - right; right. intros a a' [[<-|[<-|[<-|[]]]] I] [[<-|[<-|[<-|[]]]] J]; try contradiction; easy.
  - right; left. exists (t2 t). split; [cbn; tauto|]. split; [lra|]. intros a a' [[<-|[<-|[<-|[]]]] I] [[<-|[<-|[<-|[]]]] J]; try contradiction; unfold t2; eauto.
  - right; right. intros a a' [[<-|[<-|[<-|[]]]] I] [[<-|[<-|[<-|[]]]] J]; try contradiction; easy.
  - right; right. intros a a' [[<-|[<-|[<-|[]]]] I] [[<-|[<-|[<-|[]]]] J]; try contradiction; easy.
  - right; right. intros a a' [[<-|[<-|[<-|[]]]] I] [[<-|[<-|[<-|[]]]] J]; try contradiction; easy.
Qed.
Lemma tri_normals_R t : Tri_UniqueFaceNormals t = [nrm t; cross (nrm t) (t0 t); cross (nrm t) (t1 t); cross (nrm t) (t2 t)]. Proof. reflexivity. Qed.
Lemma tri_axes1 t : proper_tri t -> axes_ok (tcorners t) [nrm t] [t0 t; t1 t; t2 t].
Proof.
  intros P n al NN B. destruct (edges_nz t P) as (N0 & N1 & N2). destruct (dot_t n t) as (D0 & D1 & D2).
  destruct (tri_touch t n al (exists f, In f [nrm t] /\ parallel f n)) as [H|[(e & IE & OE & T)|H]]; [|now left| |now right; right].
  - intros Ea Eb Ec. exists (nrm t). split; [now left|]. apply (two_orth (t0 t) (t1 t) (nrm t)); [now apply tri_ind|now apply proper_nrm|rewrite nrm_t; apply dcl|rewrite nrm_t; apply dcr|lra|lra|easy].
  - right; left. exists e. split; [easy|]. split; [|now split]. destruct IE as [<-|[<-|[<-|[]]]]; assumption.
Qed.
Lemma tri_axes t : proper_tri t -> axes_ok (tcorners t) (Tri_UniqueFaceNormals t) (Tri_UniqueEdgeDirections t).
Proof.
  intros P n al NN B. change (Tri_UniqueEdgeDirections t) with [t0 t; t1 t; t2 t]. destruct (tri_axes1 t P n al NN B) as [(f & [<-|[]] & PF)|H]; [left|now right].
  exists (nrm t). split; [now left|easy].
Qed.
Lemma cross_nz_orth l e : l <> origin -> e <> origin -> dot l e = 0 -> cross l e <> origin.
Proof.
  intros L E O Z. assert (Q : dot (cross l e) (cross l e) = 0) by (rewrite Z; apply dot_origin_r). rewrite cross_sq, O in Q.
  destruct (dot_pos l) as [P1|P1]; [|symmetry in P1; now apply L, dot_zero]. destruct (dot_pos e) as [P2|P2]; [|symmetry in P2; now apply E, dot_zero]. nra.
Qed.
Lemma nrm_orth t : dot (nrm t) (t0 t) = 0 /\ dot (nrm t) (t1 t) = 0 /\ dot (nrm t) (t2 t) = 0.
Proof. unfold nrm, t0, t1, t2, cross; gunf; repeat split; ring. Qed.
Lemma orth_ind l e : l <> origin -> e <> origin -> dot l e = 0 -> independent l e (cross l e).
Proof.
  intros L E O w A B C. apply dot_zero. destruct (dot_pos l) as [P1|P1]; [|symmetry in P1; now destruct (L (dot_zero l P1))]. destruct (dot_pos e) as [P2|P2]; [|symmetry in P2; now destruct (E (dot_zero e P2))].
  assert (dot w w * (dot l l * dot e e) = dot l e * dot l e * dot w w + (dot e e * dot w l * dot w l + dot l l * dot w e * dot w e - 2 * dot l e * dot w l * dot w e) + dot w (cross l e) * dot w (cross l e)) as K by (unfold cross; gunf; ring).
  rewrite O, A, B, C in K. assert (Z : dot w w * (dot l l * dot e e) = 0) by (rewrite K; ring). apply Rmult_integral in Z. destruct Z as [Z|Z]; [exact Z|]. pose proof (Rmult_lt_0_compat _ _ P1 P2). lra.
Qed.
Lemma tri_flat t l : proper_tri t -> l <> origin -> dot l (t0 t) = 0 -> dot l (t1 t) = 0 -> flat_ok l (tcorners t) (Tri_UniqueFaceNormals t).
Proof.
  intros P L O0 O1 n al NN NL B. rewrite tri_normals_R. destruct (edges_nz t P) as (N0 & N1 & N2). destruct (dot_t n t) as (D0 & D1 & D2). destruct (nrm_orth t) as (M0 & M1 & M2). pose proof P as PN. apply proper_nrm in PN.
  assert (PL : parallel (nrm t) l) by (apply (two_orth (t0 t) (t1 t) (nrm t)); auto using tri_ind).
  assert (NM : dot n (nrm t) = 0) by (destruct PL as (_ & k & _ & ->); rewrite dot_scale_r, NL; ring).
  destruct (tri_touch t n al (exists f, In f [nrm t; cross (nrm t) (t0 t); cross (nrm t) (t1 t); cross (nrm t) (t2 t)] /\ parallel f n)) as [H|[(e & IE & OE & T)|H]]; [|now left| |now right].
  - intros Ea Eb Ec. exfalso. apply NN. apply (tri_ind t P); lra.
  - left. exists (cross (nrm t) e). split; [cbn in *; intuition (subst; tauto)|].
    assert (NE : e <> origin /\ dot (nrm t) e = 0) by (destruct IE as [<-|[<-|[<-|[]]]]; now split). destruct NE as [NE OM].
    apply (two_orth (nrm t) e (cross (nrm t) e)); [now apply orth_ind|now apply cross_nz_orth|apply dcl|apply dcr|easy|easy|easy].
Qed.

Theorem C82_box_box (b1 b2 : aabb R) : solid b1 -> solid b2 -> (SATIntersect (AABB_shape b1) (AABB_shape b2) = true <-> exists p, in_box b1 p /\ in_box b2 p).
Proof.
  intros S1 S2. apply (sat_exact _ _ _ _ (bcorners b1) (bcorners b2)); try (apply box_describes; now apply solid_ok); try now apply box_axes.
  destruct S1 as (? & ? & ?). apply par_span; try lra; [apply ind_basis|apply bcorners_ne].
Qed.
Theorem C82_box_triangle (b : aabb R) (t : triangle R) : solid b -> proper_tri t -> (SATIntersect (AABB_shape b) (Tri_shape t) = true <-> exists p, in_box b p /\ in_triangle t p).
Proof.
  intros S1 P. apply (sat_exact _ _ _ _ (bcorners b) (tcorners t)); [apply box_describes; now apply solid_ok|apply tri_describes|now apply box_axes|now apply tri_axes|].
  destruct S1 as (? & ? & ?). apply par_span; try lra; [apply ind_basis|discriminate].
Qed.
Lemma span_swap l A B : span_with l (fun c => In c (diffs A B)) -> span_with l (fun c => In c (diffs B A)).
Proof.
  intros H w L W. apply H; [easy|]. intros c C. apply diffs_in in C. destruct C as (a & b & I & J & ->). assert (Z : dot w (minus a b) = 0) by (apply W, diffs_in; now exists b, a).
  rewrite dot_minus_r in *. lra.
Qed.
Theorem C82_triangle_box (b : aabb R) (t : triangle R) : solid b -> proper_tri t -> (SATIntersect (Tri_shape t) (AABB_shape b) = true <-> exists p, in_triangle t p /\ in_box b p).
Proof.
  intros S1 P. apply (sat_exact _ _ _ _ (tcorners t) (bcorners b)); [apply tri_describes|apply box_describes; now apply solid_ok|now apply tri_axes|now apply box_axes|].
  apply span_swap. destruct S1 as (? & ? & ?). apply par_span; try lra; [apply ind_basis|discriminate].
Qed.
(** Two proper triangles, in any position, also in one plane. *)
Theorem C82_triangle_triangle (t t' : triangle R) : proper_tri t -> proper_tri t' -> (SATIntersect (Tri_shape t) (Tri_shape t') = true <-> exists p, in_triangle t p /\ in_triangle t' p).
Proof.
  intros P P'. pose proof (tri_describes t) as D. pose proof (tri_describes t') as D'. pose proof (dot_t) as DT.
  destruct (classic (dot (nrm t) (t0 t') = 0 /\ dot (nrm t) (t1 t') = 0 /\ dot (nrm t) (minus (tri_a t') (tri_a t)) = 0)) as [(F0 & F1 & FA)|NF].
  - pose proof P as PN. apply proper_nrm in PN. destruct (nrm_orth t) as (M0 & M1 & M2).
    assert (OL : forall c, In c (diffs (tcorners t) (tcorners t')) -> dot (nrm t) c = 0).
    { intros c C. apply diffs_in in C. destruct C as (a & b & I & J & ->). destruct (DT (nrm t) t) as (Q0 & Q1 & _). destruct (DT (nrm t) t') as (R0 & R1 & _). rewrite dot_minus_r in *.
      destruct I as [<-|[<-|[<-|[]]]], J as [<-|[<-|[<-|[]]]]; lra. }
    split.
    + intros H. destruct D as (CA & NA & IA & DD). destruct D' as (CB & NB & IB & DD').
      destruct (sat_flat (nrm t) (in_triangle t) (in_triangle t') (tcorners t) (tcorners t') (Tri_UniqueFaceNormals t) (Tri_UniqueFaceNormals t') CA CB IA IB NA NB PN OL) as [X|(m & M & G)]; [| | |exact X|].
      * now apply tri_flat.
      * now apply tri_flat.
      * intros w L W. assert (K : forall a b, In a (tcorners t) -> In b (tcorners t') -> dot w b - dot w a = 0) by (intros a b I J; rewrite <- dot_minus_r; apply W, diffs_in; now exists a, b).
        pose proof (K (tri_a t) (tri_a t') (or_introl eq_refl) (or_introl eq_refl)). pose proof (K (tri_b t) (tri_a t') (or_intror (or_introl eq_refl)) (or_introl eq_refl)).
        pose proof (K (tri_c t) (tri_a t') (or_intror (or_intror (or_introl eq_refl))) (or_introl eq_refl)). destruct (DT w t) as (Q0 & Q1 & _). apply (tri_ind t P); [lra|lra|easy].
      * exfalso. rewrite sat_true in H. assert (E : SAT_apart (Tri_shape t) (Tri_shape t') m = false) by (apply H; destruct M; [now left|now right; left]).
        apply (apart_iff (Tri_shape t) (Tri_shape t') (in_triangle t) (in_triangle t') (tcorners t) (tcorners t') m) in G; [congruence|apply tri_describes|apply tri_describes].
    + intros (p & X & Y). destruct (SATIntersect (Tri_shape t) (Tri_shape t')) eqn:E; [easy|]. exfalso. exact (sat_no _ _ _ _ _ _ D D' E p X Y).
  - apply (sat_exact _ _ _ _ (tcorners t) (tcorners t')); try assumption; try now apply tri_axes.
    intros w _ W. assert (K : forall a b, In a (tcorners t) -> In b (tcorners t') -> dot w b - dot w a = 0) by (intros a b I J; rewrite <- dot_minus_r; apply W, diffs_in; now exists a, b).
    assert (KK : forall a b, In a (tcorners t) -> In b (tcorners t') -> dot w b = dot w a) by (intros a b I J; specialize (K a b I J); lra). clear K.
    assert (Ia : In (tri_a t) (tcorners t) /\ In (tri_b t) (tcorners t) /\ In (tri_c t) (tcorners t)) by (cbn; tauto). assert (Ja : In (tri_a t') (tcorners t') /\ In (tri_b t') (tcorners t') /\ In (tri_c t') (tcorners t')) by (cbn; tauto).
    destruct Ia as (I1 & I2 & I3), Ja as (J1 & J2 & J3).
    destruct (DT w t) as (Q0 & Q1 & _). destruct (DT w t') as (R0 & R1 & _).
    pose proof (KK _ _ I1 J1). pose proof (KK _ _ I2 J1). pose proof (KK _ _ I3 J1). pose proof (KK _ _ I1 J2). pose proof (KK _ _ I1 J3).
    destruct (classic (w = origin)) as [Z|Z]; [exact Z|exfalso]. apply NF.
    assert (PL : parallel (nrm t) w) by (apply (two_orth (t0 t) (t1 t) (nrm t)); [now apply tri_ind|now apply proper_nrm|apply nrm_orth|apply nrm_orth|lra|lra|easy]).
    destruct PL as (_ & k & _ & ->). rewrite !dot_scale_l, dot_minus_r. repeat split; [replace (dot w (t0 t')) with 0 by lra|replace (dot w (t1 t')) with 0 by lra|replace (dot w (tri_a t') - dot w (tri_a t)) with 0 by lra]; ring.
Qed.
(** Disjoint shapes found apart only by a cross product of edges, and touching coplanar triangles. *)
Example C82_witness : solid (Box (V3 0 0 0) (V3 1 1 1)) /\ proper_tri w_tri /\ proper_tri (Tri (V3 0 0 0) (V3 (-1) 0 0) (V3 0 (-1) 0)) /\
  SATIntersect (Tri_shape (Tri (V3 0 0 0) (V3 1 0 0) (V3 0 1 0))) (Tri_shape (Tri (V3 0 0 0) (V3 (-1) 0 0) (V3 0 (-1) 0))) = true.
Proof.
  assert (P : forall x, x <> 0 -> proper_tri (Tri (V3 0 0 0) (V3 x 0 0) (V3 0 x 0))).
  { intros x X. apply proper_nrm. apply nzv. right; right. unfold nrm, cross. gunf. cbn. intros Z. apply X. nra. }
  split; [repeat split; cbn; lra|]. split; [apply w_tri_proper|]. split; [apply P; lra|]. apply C82_triangle_triangle; try (apply P; lra).
  exists (V3 0 0 0). split; apply tri_corners.
Qed.
Print Assumptions C82_box_box.
Print Assumptions C82_box_triangle.
Print Assumptions C82_triangle_box.
Print Assumptions C82_triangle_triangle.
