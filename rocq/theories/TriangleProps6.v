(** C81: Triangle::Intersects(Triangle), parallel planes. *)
From Coq Require Import Reals Lra Psatz Bool List Classical.
From Verif Require Import Num NumR ScalarModel ScalarProofs Vec3Model Vec2Model GeoTypes MatModel GMatProofs GeoSpec GeoLemmas Vec3Props AabbSpec LineModel LineSpec LineProofs LineProofs2 LineProps
  MatSpec MatProofs MatProofs2 PlaneModel PlaneSpec PlaneProps PlaneProps2 PlaneProps3 PlaneProps4 TriangleModel TriangleSpec TriangleProps TriangleProps2 SatTheory SatModel SatProps TriangleProps4 TriangleProps5.
Import ListNotations.
Open Scope R_scope.

Definition coplanar (t t' : triangle R) : Prop := forall p, in_triangle t' p -> above t p = 0.
(** No edge of one is nearly parallel to an edge of the other (sine 1e-4). *)
Definition general_edges (t t' : triangle R) : Prop := forall e e', edge_of t e -> edge_of t' e' -> let d := minus (seg_b e) (seg_a e) in let d' := minus (seg_b e') (seg_a e') in
  1 / 100000000 * dot d d * dot d' d' < dot (cross d d') (cross d d').

(** Leaving a triangle within its plane, one of its edges is crossed. *)
Lemma leaves t p q : in_triangle t p -> in_tri_plane t q -> ~ in_triangle t q -> exists e l, edge_of t e /\ 0 <= l <= 1 /\ on_segment e (lerp l p q).
Proof.
  intros (u & v & w & Hu & Hv & Hw & E & ->) (u' & v' & w' & E' & ->) N. apply (not_in_bary t u' v' w' E') in N. change (plus (scale u (tri_a t)) (plus (scale v (tri_b t)) (scale w (tri_c t)))) with (bary t u v w).
  destruct (exit [(u, u'); (v, v'); (w, w')]) as (l & L & A & B).
  { intros x y [I|[I|[I|[]]]]; injection I as <- <-; easy. }
  { destruct N as [N|[N|N]]; [exists u, u'|exists v, v'|exists w, w']; cbn; tauto. }
  destruct (bary_edge t (mix l u u') (mix l v v') (mix l w w')) as (e & Ee & On); [apply A; cbn; tauto..| | |].
  - now apply mix_sum.
  - destruct B as (x & y & I & Z). destruct I as [I|[I|[I|[]]]]; injection I as <- <-; tauto.
  - exists e, l. rewrite lerp_bary. easy.
Qed.
Lemma lerp_on a b p q l : 0 <= l <= 1 -> on_segment (Seg a b) p -> on_segment (Seg a b) q -> on_segment (Seg a b) (lerp l p q).
Proof. intros L (s & S & ->) (s' & S' & ->). exists (mix l s s'). split; [unfold mix; nra|]. apply vec_ext; unfold lerp, mix; gunf; cbn [vx vy vz seg_a seg_b]; ring. Qed.
Lemma seg_end_a a b : on_segment (Seg a b) a. Proof. exists 0. split; [lra|]. apply vec_ext; gunf; cbn [vx vy vz seg_a seg_b]; ring. Qed.
Lemma seg_end_b a b : on_segment (Seg a b) b. Proof. exists 1. split; [lra|]. apply vec_ext; gunf; cbn [vx vy vz seg_a seg_b]; ring. Qed.
Lemma tri_lerp t p q l : 0 <= l <= 1 -> in_triangle t p -> in_triangle t q -> in_triangle t (lerp l p q).
Proof.
  intros L (u & v & w & Hu & Hv & Hw & E & ->) (u' & v' & w' & Hu' & Hv' & Hw' & E' & ->). exists (mix l u u'), (mix l v v'), (mix l w w'). unfold mix. repeat split; try nra.
  apply vec_ext; unfold lerp; gunf; cbn [vx vy vz]; ring.
Qed.
(** Two triangles in one plane with a common point: a corner a lies in the other triangle, or two edges meet. *)
Lemma edges_meet t t' p : (forall q, in_triangle t' q -> in_tri_plane t q) -> (forall q, in_triangle t q -> in_tri_plane t' q) -> in_triangle t p -> in_triangle t' p ->
  in_triangle t' (tri_a t) \/ in_triangle t (tri_a t') \/ exists e e' x, edge_of t e /\ edge_of t' e' /\ on_segment e x /\ on_segment e' x.
Proof.
  intros C C' I I'. destruct (classic (in_triangle t' (tri_a t))) as [A|A]; [now left|]. destruct (classic (in_triangle t (tri_a t'))) as [A'|A']; [right; now left|]. right; right.
  assert (Va : in_triangle t (tri_a t)) by (apply vertex_in; now left).
  destruct (leaves t' p (tri_a t) I' (C' _ Va) A) as (e' & l & Ee & L & On). assert (It : in_triangle t (lerp l p (tri_a t))) by (now apply tri_lerp). set (x := lerp l p (tri_a t)) in *. clearbody x.
  assert (OUT : forall e0 y, edge_of t' e0 -> on_segment e0 y -> in_triangle t y -> forall v, vertex_of t' v -> on_segment e0 v -> ~ in_triangle t v -> exists e e' x, edge_of t e /\ edge_of t' e' /\ on_segment e x /\ on_segment e' x).
  { intros e0 y E0 Y0 Yt v V V0 Vn. destruct (leaves t y v Yt (C v (vertex_in _ _ V)) Vn) as (e & l' & Ee' & L' & On'). exists e, e0, (lerp l' y v). repeat split; try assumption. destruct e0 as [g h]. now apply lerp_on. }
  destruct Ee as [ -> |[ -> | -> ]].
  - apply (OUT _ x (or_introl eq_refl) On It (tri_a t')); [now left|apply seg_end_a|exact A'].
  - destruct (classic (in_triangle t (tri_b t'))) as [B|B].
    + apply (OUT (Seg (tri_a t') (tri_b t')) (tri_b t') (or_introl eq_refl) (seg_end_b _ _) B (tri_a t')); [now left|apply seg_end_a|exact A'].
    + apply (OUT _ x (or_intror (or_introl eq_refl)) On It (tri_b t')); [right; now left|apply seg_end_a|exact B].
  - apply (OUT _ x (or_intror (or_intror eq_refl)) On It (tri_a t')); [now left|apply seg_end_b|exact A'].
Qed.

(** The two-dimensional segment test, away from parallel. *)
Lemma seg2_R (q0 d0 q1 d1 : v2 R) : 1 / 100000000 * LengthSq2 d0 * LengthSq2 d1 < PerpDot2 d0 d1 * PerpDot2 d0 d1 ->
  exists s k, LineSegment2DLineSegment2DIntersect q0 d0 q1 d1 = (Rleb 0 s && Rleb s 1 && Rleb 0 k && Rleb k 1, Some (s, k)) /\
  forall s' k', (x2 q0 + s' * x2 d0 = x2 q1 + k' * x2 d1 /\ y2 q0 + s' * y2 d0 = y2 q1 + k' * y2 d1) <-> s' = s /\ k' = k.
Proof.
  intros N. unfold LineSegment2DLineSegment2DIntersect. cbv zeta. rewrite nlit_R. rsimpl. rewrite (proj2 (Rltb_true _ _)).
  2:{ replace (IZR 1 / IZR (Z.pos 100000000)) with (1 / 100000000) by lra. exact N. }
  set (c := PerpDot2 d0 d1) in *. assert (C : c <> 0).
  { intros Z. rewrite Z in N. assert (0 <= LengthSq2 d0) by (unfold LengthSq2; rsimpl; nra). assert (0 <= LengthSq2 d1) by (unfold LengthSq2; rsimpl; nra). nra. }
  exists (PerpDot2 (sub2 q1 q0) d1 / c), (PerpDot2 (sub2 q1 q0) d0 / c). split; [reflexivity|]. destruct q0 as [a b], d0 as [d e], q1 as [f g], d1 as [h i]. unfold c, PerpDot2, sub2 in *. cbn [x2 y2] in *. clear N. rsimpl.
  intros s k. split.
  - intros [E1 E2]. split; apply Rmult_eq_reg_r with (d * i - e * h); try assumption; unfold Rdiv; rewrite Rmult_assoc, Rinv_l, Rmult_1_r by assumption; [transitivity ((s * d) * i - (s * e) * h); [ring|replace (s * d) with (f + k * h - a) by lra; replace (s * e) with (g + k * i - b) by lra; ring]|].
    transitivity (d * (k * i) - e * (k * h)); [ring|]. replace (k * i) with (b + s * e - g) by lra. replace (k * h) with (a + s * d - f) by lra. ring.
  - intros [-> ->]. split; field; assumption.
Qed.
Definition pair2 (U V p : pt) : v2 R := V2 (dot U p) (dot V p).
Section Flat.
  Context (n U V : pt) (Hn : unitv n) (HU : unitv U) (HV : unitv V) (O1 : orth n U) (O2 : orth n V) (O3 : orth U V).
  Lemma flat_dot v w : dot n v = 0 -> dot U v * dot U w + dot V v * dot V w = dot v w.
  Proof. intros N. rewrite <- (parseval n U V v w Hn HU HV O1 O2 O3), N. ring. Qed.
  Lemma flat_len v : dot n v = 0 -> LengthSq2 (pair2 U V v) = dot v v.
  Proof. intros N. rewrite <- (flat_dot v v N). reflexivity. Qed.
  Lemma flat_cross v w : dot n v = 0 -> dot n w = 0 -> PerpDot2 (pair2 U V v) (pair2 U V w) * PerpDot2 (pair2 U V v) (pair2 U V w) = dot (cross v w) (cross v w).
  Proof. intros Nv Nw. rewrite cross_sq, <- (flat_dot v v Nv), <- (flat_dot w w Nw), <- (flat_dot v w Nv). unfold PerpDot2, pair2. cbn [x2 y2]. rsimpl. ring. Qed.
  Lemma flat_inj v w : dot n (minus v w) = 0 -> dot U v = dot U w -> dot V v = dot V w -> v = w.
  Proof.
    intros N E1 E2. pose proof (flat_dot (minus v w) (minus v w) N) as D. rewrite !dot_minus_r in D. rewrite E1, E2 in D. symmetry in D.
    assert (Z : dot (minus v w) (minus v w) = 0) by (rewrite !dot_minus_r; rewrite D; ring). apply dot_zero in Z. apply vec_ext; [apply (f_equal vx) in Z|apply (f_equal vy) in Z|apply (f_equal vz) in Z]; revert Z; gunf; cbn [vx vy vz origin]; lra.
  Qed.
End Flat.
Lemma fold_found {A B : Type} (f : A -> bool * option B) (hit : A -> bool) (l : list A) (o : option B) :
  (forall x, hit x = true -> fst (f x) = true) -> fst (fold_left (fun (found : bool * option B) x => if fst found then found else if hit x then f x else found) l (false, o)) = existsb hit l.
Proof.
  intros H. revert o. induction l as [|x l IH]; intros o; [reflexivity|]. cbn [fold_left existsb fst]. destruct (hit x) eqn:E; [|apply IH]. cbn [orb]. specialize (H x E).
  destruct (f x) as [b o']. cbn [fst] in H. subst b. clear. induction l as [|y l IH]; [reflexivity|exact IH].
Qed.
Lemma contains_bary_R t p : proper_tri t -> in_tri_plane t p -> (Tri_ContainsBary t p = true <-> in_enlarged t (1 / 1000) p).
Proof.
  intros P (u & v & w & E & ->). unfold Tri_ContainsBary. rewrite (C46_barycentric t u v w P E). cbv zeta. cbn [vx vy vz]. rewrite nlit_R. rsimpl. rewrite !andb_true_iff, !Rleb_true. split.
  - intros [[H1 H2] H3]. exists u, v, w. repeat split; lra.
  - intros (u' & v' & w' & H1 & H2 & H3 & E' & Q). assert (K : V3 u v w = V3 u' v' w') by (rewrite <- (C46_barycentric t u v w P E), <- (C46_barycentric t u' v' w' P E'); now rewrite Q). injection K as -> -> ->. lra.
Qed.
Lemma above_plane t p : proper_tri t -> (above t p = 0 <-> in_tri_plane t p).
Proof.
  intros P. pose proof (nrm_pos t P) as L. assert (A : above t p = dot (nrm t) (minus p (tri_a t)) / norm (nrm t)) by (unfold above; rewrite vol_nrm; reflexivity). rewrite A. split.
  - intros Z. assert (Q : dot (nrm t) (minus p (tri_a t)) = 0). { apply Rmult_eq_reg_r with (/ norm (nrm t)); [rewrite Rmult_0_l; exact Z|]. apply Rinv_neq_0_compat. lra. }
    apply plane_bary; [exact P|]. rewrite dot_minus_r in Q. lra.
  - intros (u & v & w & E & ->). rewrite <- A. rewrite (above_bary t t u v w P E). rewrite (above_self t (tri_a t)), (above_self t (tri_b t)), (above_self t (tri_c t)); try exact P; try (apply vertex_in; unfold vertex_of; tauto). ring.
Qed.
Lemma fold_hit {A B : Type} (g : bool * option B -> A -> bool * option B) (hit : A -> bool) (l : list A) (o : option B) :
  (forall o' x, g (true, o') x = (true, o')) -> (forall o' x, fst (g (false, o') x) = hit x) -> fst (fold_left g l (false, o)) = existsb hit l.
Proof.
  intros K H. assert (KK : forall l o', fold_left g l (true, o') = (true, o')) by (clear l o; induction l as [|x l IH]; intros o'; [reflexivity|cbn [fold_left]; rewrite K; apply IH]).
  revert o. induction l as [|x l IH]; intros o; [reflexivity|]. cbn [fold_left existsb]. specialize (H o x). destruct (g (false, o) x) as [b o']. cbn [fst] in H. subst b. destruct (hit x); [rewrite KK; reflexivity|apply IH].
Qed.
Lemma cross_cross a x y : dot a x = 0 -> dot a y = 0 -> cross a (cross x y) = origin.
Proof. intros E1 E2. assert (G : cross a (cross x y) = minus (scale (dot a y) x) (scale (dot a x) y)) by (apply vec_ext; unfold cross; gunf; cbn [vx vy vz]; ring). rewrite G, E1, E2. apply vec_ext; gunf; cbn [vx vy vz origin]; ring. Qed.
Lemma parallel_zero t t' : proper_tri t -> proper_tri t' -> cross (nrm t) (nrm t') = origin -> IsZero (Cross (pnormal (Tri_PlaneCCW t)) (pnormal (Tri_PlaneCCW t'))) = true.
Proof.
  intros P P' Z. destruct (plane_R t P) as (_ & E & _). destruct (plane_R t' P') as (_ & E' & _). apply not_false_iff_true. intros F. apply IsZero_R in F. change (@Cross R Num_R) with cross in F. rewrite E, E' in F.
  assert (G : cross (scale (/ norm (nrm t)) (nrm t)) (scale (/ norm (nrm t')) (nrm t')) = scale (/ norm (nrm t) * / norm (nrm t')) (cross (nrm t) (nrm t'))) by (apply vec_ext; unfold cross; gunf; cbn [vx vy vz]; ring).
  rewrite G, Z, dot_scale_l, dot_scale_r in F. assert (dot origin origin = 0) by (gunf; cbn; ring). rewrite H in F. lra.
Qed.
Theorem C81_parallel (t t' : triangle R) : proper_tri t -> proper_tri t' -> cross (nrm t) (nrm t') = origin -> tol < Rabs (above t (tri_a t')) ->
  Tri_IntersectsTri t t' = (false, None) /\ forall p, in_triangle t p -> in_triangle t' p -> False.
Proof.
  intros P P' Z D. destruct (plane_R t P) as (_ & E & H). split.
  - unfold Tri_IntersectsTri. rewrite (parallel_zero t t' P P' Z). cbn [negb]. cbv zeta. change (@Dot R Num_R) with dot. rewrite Abs_R, nlit_R. rsimpl. rewrite (proj2 (Rltb_true _ _)); [reflexivity|].
    rewrite <- H in D. unfold height in D. unfold tol in D. replace (pd (Tri_PlaneCCW t)) with (dot (pnormal (Tri_PlaneCCW t)) (tri_a t)) in D by reflexivity. rewrite Rabs_minus_sym. lra.
  - intros p I I'. pose proof (above_self t p P I) as A. destruct I' as (u & v & w & _ & _ & _ & S & ->). change (above t (bary t' u v w) = 0) in A. rewrite (above_bary t t' u v w P S) in A.
    assert (K : forall x, dot (nrm t') (minus x (tri_a t')) = 0 -> above t x = above t (tri_a t')).
    { intros x X. unfold above. rewrite !vol_nrm. fold (nrm t). f_equal. assert (Q : dot (nrm t) (minus x (tri_a t')) = 0).
      { pose proof (nrm_pos t' P') as L. assert (W : scale (dot (nrm t') (nrm t')) (nrm t) = scale (dot (nrm t) (nrm t')) (nrm t')).
        { assert (CC : cross (nrm t') (cross (nrm t) (nrm t')) = minus (scale (dot (nrm t') (nrm t')) (nrm t)) (scale (dot (nrm t) (nrm t')) (nrm t'))) by (apply vec_ext; unfold cross; gunf; cbn [vx vy vz]; ring).
          rewrite Z in CC. assert (C0 : cross (nrm t') origin = origin) by (apply vec_ext; unfold cross; gunf; cbn [vx vy vz origin]; ring). rewrite C0 in CC.
          apply vec_ext; [apply (f_equal vx) in CC|apply (f_equal vy) in CC|apply (f_equal vz) in CC]; revert CC; gunf; cbn [vx vy vz origin]; lra. }
        assert (Y : dot (scale (dot (nrm t') (nrm t')) (nrm t)) (minus x (tri_a t')) = 0) by (rewrite W, dot_scale_l, X; ring). rewrite dot_scale_l in Y. apply Rmult_integral in Y. destruct Y as [Y|Y]; [|exact Y]. rewrite <- norm_sq in Y. nra. }
      rewrite !dot_minus_r in *. lra. }
    rewrite (K (tri_b t')), (K (tri_c t')) in A; [|unfold nrm; rewrite dot_comm; apply cross_dot_r|unfold nrm; rewrite dot_comm; apply cross_dot_l].
    assert (A0 : above t (tri_a t') = 0) by nra. rewrite A0, Rabs_R0 in D. unfold tol in D. lra.
Qed.
Print Assumptions C81_parallel.
Lemma coplanar_parallel t t' : proper_tri t -> coplanar t t' -> cross (nrm t) (nrm t') = origin /\ forall e', edge_of t' e' -> dot (nrm t) (minus (seg_b e') (seg_a e')) = 0.
Proof.
  intros P C. pose proof (nrm_pos t P) as L. assert (V : forall v, vertex_of t' v -> dot (nrm t) (minus v (tri_a t)) = 0).
  { intros v Hv. pose proof (C v (vertex_in _ _ Hv)) as A. unfold above in A. rewrite vol_nrm in A. fold (nrm t) in A. apply Rmult_integral in A. destruct A as [A|A]; [exact A|]. exfalso. revert A. apply Rinv_neq_0_compat. lra. }
  assert (D : forall v w, vertex_of t' v -> vertex_of t' w -> dot (nrm t) (minus v w) = 0) by (intros v w Hv Hw; apply V in Hv, Hw; rewrite dot_minus_r in *; lra).
  split; [apply cross_cross; apply D; unfold vertex_of; tauto|]. intros e' E. apply edge_ends in E. apply D; apply E.
Qed.
(** ** C81: one plane. *)
Theorem C81_coplanar (t t' : triangle R) : proper_tri t -> proper_tri t' -> coplanar t t' ->
  (in_enlarged t' (1 / 1000) (tri_a t) \/ in_enlarged t (1 / 1000) (tri_a t') -> Tri_IntersectsTri t t' = (true, None)) /\
  (general_edges t t' ->
    ((exists p, in_triangle t p /\ in_triangle t' p) -> fst (Tri_IntersectsTri t t') = true) /\
    (fst (Tri_IntersectsTri t t') = true -> (exists p, in_triangle t p /\ in_triangle t' p) \/ in_enlarged t' (1 / 1000) (tri_a t) \/ in_enlarged t (1 / 1000) (tri_a t'))).
Proof.
  intros P P' C. destruct (coplanar_parallel t t' P C) as [Z D]. pose proof (nrm_pos t P) as L. destruct (plane_R t P) as (Un & En & H).
  assert (CP : forall q, in_triangle t' q -> in_tri_plane t q) by (intros q Q; apply above_plane; [exact P|now apply C]).
  assert (BK : forall e, edge_of t e -> dot (nrm t) (minus (seg_b e) (seg_a e)) = 0).
  { intros e E. apply edge_ends in E. destruct E as [E1 E2]. apply vertex_in in E1, E2. apply (above_self t _ P) in E1, E2. unfold above in E1, E2. rewrite vol_nrm in E1, E2. fold (nrm t) in E1, E2.
    apply Rmult_integral in E1, E2. assert (/ norm (nrm t) <> 0) by (apply Rinv_neq_0_compat; lra). rewrite dot_minus_r in *. destruct E1 as [E1|E1]; [|contradiction]. destruct E2 as [E2|E2]; [|contradiction]. lra. }
  assert (CP' : forall q, in_triangle t q -> in_tri_plane t' q).
  { intros q Q. apply above_plane; [exact P'|]. apply (above_self t q P) in Q. pose proof (C (tri_a t') (vertex_in _ _ (or_introl eq_refl))) as A. unfold above in *. rewrite vol_nrm in *. fold (nrm t) in Q, A. fold (nrm t').
    apply Rmult_integral in Q, A. assert (I : / norm (nrm t) <> 0) by (apply Rinv_neq_0_compat; lra). destruct Q as [Q|Q]; [|contradiction]. destruct A as [A|A]; [|contradiction].
    assert (Y : dot (nrm t) (minus q (tri_a t')) = 0) by (rewrite dot_minus_r in *; lra).
    assert (X : dot (nrm t') (minus q (tri_a t')) = 0).
    { assert (W : scale (dot (nrm t) (nrm t)) (nrm t') = scale (dot (nrm t) (nrm t')) (nrm t)).
      { assert (CC : cross (nrm t) (cross (nrm t) (nrm t')) = minus (scale (dot (nrm t) (nrm t')) (nrm t)) (scale (dot (nrm t) (nrm t)) (nrm t'))) by (apply vec_ext; unfold cross; gunf; cbn [vx vy vz]; ring).
        rewrite Z in CC. assert (C0 : cross (nrm t) origin = origin) by (apply vec_ext; unfold cross; gunf; cbn [vx vy vz origin]; ring). rewrite C0 in CC.
        apply vec_ext; [apply (f_equal vx) in CC|apply (f_equal vy) in CC|apply (f_equal vz) in CC]; revert CC; gunf; cbn [vx vy vz origin]; lra. }
      assert (Y2 : dot (scale (dot (nrm t) (nrm t)) (nrm t')) (minus q (tri_a t')) = 0) by (rewrite W, dot_scale_l, Y; ring). rewrite dot_scale_l in Y2. apply Rmult_integral in Y2. destruct Y2 as [Y2|Y2]; [|exact Y2]. rewrite <- norm_sq in Y2. nra. }
    rewrite X. unfold Rdiv. ring. }
  pose proof (contains_bary_R t' (tri_a t) P' (CP' _ (vertex_in _ _ (or_introl eq_refl)))) as B1. pose proof (contains_bary_R t (tri_a t') P (CP _ (vertex_in _ _ (or_introl eq_refl)))) as B2.
  assert (AA : Rabs (dot (pnormal (Tri_PlaneCCW t)) (tri_a t) - dot (pnormal (Tri_PlaneCCW t)) (tri_a t')) = 0).
  { pose proof (C (tri_a t') (vertex_in _ _ (or_introl eq_refl))) as A. rewrite <- H in A. unfold height in A. replace (pd (Tri_PlaneCCW t)) with (dot (pnormal (Tri_PlaneCCW t)) (tri_a t)) in A by reflexivity. rewrite Rabs_minus_sym, A. apply Rabs_R0. }
  unfold Tri_IntersectsTri. rewrite (parallel_zero t t' P P' Z). cbn [negb]. cbv zeta. toG. rewrite Abs_R, nlit_R. rsimpl. rewrite AA. rewrite (proj2 (Rltb_false _ _)) by lra.
  destruct (Tri_ContainsBary t' (tri_a t) || Tri_ContainsBary t (tri_a t')) eqn:O.
  { split; [reflexivity|]. intros _. cbn [fst]. split; [easy|]. intros _. right. apply orb_true_iff in O. destruct O as [O|O]; [left; now apply B1|right; now apply B2]. }
  apply orb_false_iff in O. destruct O as [O1 O2]. rewrite <- not_true_iff_false, B1 in O1. rewrite <- not_true_iff_false, B2 in O2.
  split; [intros [X|X]; contradiction|]. intros G.
  set (n := pnormal (Tri_PlaneCCW t)) in *. pose proof (C27_perpendicular_basis n Un) as PB. destruct (PerpendicularBasis n) as [U V]. destruct PB as (UU & UV & OU & OV & OUV & _).
  set (hit := fun pr : (v2 R * v2 R) * (v2 R * v2 R) => let '((q0, dir0), (q1, dir1)) := pr in match LineSegment2DLineSegment2DIntersect q0 dir0 q1 dir1 with (true, Some _) => true | _ => false end).
  match goal with |- context [fold_left ?g ?l (false, None)] => assert (FH : fst (fold_left g l (false, None)) = existsb hit l) end.
  { apply fold_hit; [reflexivity|]. intros o [[q0 d0] [q1 d1]]. cbn [fst]. unfold hit. destruct (LineSegment2DLineSegment2DIntersect q0 d0 q1 d1) as [[|] [[s k]|]]; reflexivity. }
  rewrite FH. clear FH.
  set (fl := fun q : pt => V2 (dot U (minus q (tri_a t))) (dot V (minus q (tri_a t)))).
  assert (NE : forall v : pt, dot (nrm t) v = 0 -> dot n v = 0) by (intros v Hv; rewrite En, dot_scale_l, Hv; ring).
  assert (Z2 : V2 0 0 = fl (tri_a t)) by (unfold fl; f_equal; gunf; ring).
  assert (SB : forall x y, sub2 (fl x) (fl y) = pair2 U V (minus x y)) by (intros x y; unfold fl, sub2, pair2; cbn [x2 y2]; rsimpl; f_equal; rewrite !dot_minus_r; ring).
  assert (HIT : forall e e', edge_of t e -> edge_of t' e' -> (hit ((fl (seg_a e), pair2 U V (minus (seg_b e) (seg_a e))), (fl (seg_a e'), pair2 U V (minus (seg_b e') (seg_a e')))) = true <-> exists x, on_segment e x /\ on_segment e' x)).
  { intros e e' E E'. unfold hit. destruct (seg2_R (fl (seg_a e)) (pair2 U V (minus (seg_b e) (seg_a e))) (fl (seg_a e')) (pair2 U V (minus (seg_b e') (seg_a e')))) as (s & k & EQ & W).
    { rewrite (flat_len n U V Un UU UV OU OV OUV _ (NE _ (BK e E))), (flat_len n U V Un UU UV OU OV OUV _ (NE _ (D e' E'))), (flat_cross n U V Un UU UV OU OV OUV _ _ (NE _ (BK e E)) (NE _ (D e' E'))). apply G; assumption. }
    rewrite EQ. assert (WW : forall s k, along (seg_a e) (minus (seg_b e) (seg_a e)) s = along (seg_a e') (minus (seg_b e') (seg_a e')) k <-> x2 (fl (seg_a e)) + s * x2 (pair2 U V (minus (seg_b e) (seg_a e))) = x2 (fl (seg_a e')) + k * x2 (pair2 U V (minus (seg_b e') (seg_a e'))) /\
        y2 (fl (seg_a e)) + s * y2 (pair2 U V (minus (seg_b e) (seg_a e))) = y2 (fl (seg_a e')) + k * y2 (pair2 U V (minus (seg_b e') (seg_a e')))).
    { clear s k EQ W. intros s k. unfold fl, pair2. cbn [x2 y2]. split.
      - intros Q. pose proof (f_equal (dot U) Q) as Q1. pose proof (f_equal (dot V) Q) as Q2. unfold along in Q1, Q2. rewrite !dot_plus_r, !dot_scale_r in Q1, Q2. rewrite !(dot_minus_r (seg_a _)). split; lra.
      - rewrite !(dot_minus_r (seg_a _)). intros [Q1 Q2]. apply (flat_inj n U V Un UU UV OU OV OUV).
        + rewrite dot_minus_r. unfold along. rewrite !dot_plus_r, !dot_scale_r, (NE _ (BK e E)), (NE _ (D e' E')).
          pose proof (edge_ends _ _ E) as [V1 _]. pose proof (edge_ends _ _ E') as [V2 _]. apply vertex_in in V1, V2. apply C in V2. apply (above_self t _ P) in V1. rewrite <- H in V1, V2. unfold height in V1, V2. fold n in V1, V2. lra.
        + unfold along. rewrite !dot_plus_r, !dot_scale_r. lra.
        + unfold along. rewrite !dot_plus_r, !dot_scale_r. lra. }
    assert (ON : forall e0 x, on_segment e0 x <-> exists s, 0 <= s <= 1 /\ x = along (seg_a e0) (minus (seg_b e0) (seg_a e0)) s) by (intros [a0 b0] x; apply on_seg_along).
    destruct (Rleb 0 s && Rleb s 1 && Rleb 0 k && Rleb k 1) eqn:B.
    - split; [intros _|easy]. rewrite !andb_true_iff, !Rleb_true in B. exists (along (seg_a e) (minus (seg_b e) (seg_a e)) s). split; apply ON; [exists s; split; [lra|reflexivity]|]. exists k. split; [lra|]. apply WW. now apply W.
    - split; [easy|]. intros (x & X1 & X2). apply ON in X1, X2. destruct X1 as (s' & S' & ->). destruct X2 as (k' & K' & X2). apply WW in X2. apply W in X2. destruct X2 as [-> ->]. exfalso. rewrite <- not_true_iff_false, !andb_true_iff, !Rleb_true in B. apply B. lra. }
  assert (EX : forall l, existsb hit l = true <-> exists pr, In pr l /\ hit pr = true) by (intros l; apply existsb_exists). rewrite EX. clear EX.
  rewrite Z2. change (V2 (dot U (minus (tri_b t) (tri_a t))) (dot V (minus (tri_b t) (tri_a t)))) with (fl (tri_b t)). change (V2 (dot U (minus (tri_c t) (tri_a t))) (dot V (minus (tri_c t) (tri_a t)))) with (fl (tri_c t)).
  change (V2 (dot U (minus (tri_a t') (tri_a t))) (dot V (minus (tri_a t') (tri_a t)))) with (fl (tri_a t')). change (V2 (dot U (minus (tri_b t') (tri_a t))) (dot V (minus (tri_b t') (tri_a t)))) with (fl (tri_b t')). change (V2 (dot U (minus (tri_c t') (tri_a t))) (dot V (minus (tri_c t') (tri_a t)))) with (fl (tri_c t')).
  rewrite !SB.
  assert (LE : forall tt (pr : v2 R * v2 R), In pr [(fl (tri_a tt), pair2 U V (minus (tri_b tt) (tri_a tt))); (fl (tri_b tt), pair2 U V (minus (tri_c tt) (tri_b tt))); (fl (tri_c tt), pair2 U V (minus (tri_a tt) (tri_c tt)))] <->
     exists e, edge_of tt e /\ pr = (fl (seg_a e), pair2 U V (minus (seg_b e) (seg_a e)))).
  { intros tt pr. split.
    - intros [I|[I|[I|[]]]]; subst pr; [exists (Seg (tri_a tt) (tri_b tt))|exists (Seg (tri_b tt) (tri_c tt))|exists (Seg (tri_c tt) (tri_a tt))]; (split; [unfold edge_of; tauto|reflexivity]).
    - intros (e & E & ->). destruct E as [ -> |[ -> | -> ]]; cbn [seg_a seg_b In]; tauto. }
  match goal with |- context [In _ ?l] => assert (IN : forall pr, In pr l <-> exists e e', edge_of t e /\ edge_of t' e' /\ pr = ((fl (seg_a e), pair2 U V (minus (seg_b e) (seg_a e))), (fl (seg_a e'), pair2 U V (minus (seg_b e') (seg_a e'))))) end.
  { intros pr. rewrite in_flat_map. split.
    - intros (e1 & I1 & I2). apply LE in I1. destruct I1 as (e & E & ->). apply in_map_iff in I2. destruct I2 as (e2 & <- & I2). apply LE in I2. destruct I2 as (e' & E' & ->). now exists e, e'.
    - intros (e & e' & E & E' & ->). exists (fl (seg_a e), pair2 U V (minus (seg_b e) (seg_a e))). split; [apply LE; now exists e|]. apply in_map_iff. exists (fl (seg_a e'), pair2 U V (minus (seg_b e') (seg_a e'))). split; [reflexivity|]. apply LE. now exists e'. }
  split.
  - intros (p & I & I'). destruct (edges_meet t t' p CP CP' I I') as [A|[A|(e & e' & x & E & E' & X & X')]].
    + exfalso. apply O1. now apply in_enlarged_0; [lra|].
    + exfalso. apply O2. now apply in_enlarged_0; [lra|].
    + eexists. split; [apply IN; exists e, e'; split; [exact E|split; [exact E'|reflexivity]]|]. apply HIT; [exact E|exact E'|]. now exists x.
  - intros (pr & I & B). left. apply IN in I. destruct I as (e & e' & E & E' & ->). apply HIT in B; [|exact E|exact E']. destruct B as (x & X & X'). exists x. split; [apply (edge_in t e)|apply (edge_in t' e')]; assumption.
Qed.
Print Assumptions C81_coplanar.
(** When a corner of one lies in the other, Intersects returns true without writing the line, of which ClosestPoint then returns the centre. *)
Theorem C81_uninitialised_refuted (t t' : triangle R) : proper_tri t -> proper_tri t' -> coplanar t t' -> in_triangle t' (tri_a t) \/ in_triangle t (tri_a t') -> Tri_ClosestPointTri t t' = None.
Proof.
  intros P P' C I. unfold Tri_ClosestPointTri. rewrite (proj1 (C81_coplanar t t' P P' C)); [reflexivity|]. destruct I; [left|right]; (apply in_enlarged_0; [lra|assumption]).
Qed.
Print Assumptions C81_uninitialised_refuted.
Example C81_coplanar_witness : let t := Tri (V3 0 0 0) (V3 4 0 0) (V3 2 3 0) in let t' := Tri (V3 0 2 0) (V3 2 (-2) 0) (V3 4 3 0) in
  proper_tri t /\ proper_tri t' /\ coplanar t t' /\ general_edges t t' /\ (exists p, in_triangle t p /\ in_triangle t' p).
Proof.
  cbv zeta. assert (PR : forall t : triangle R, vz (nrm t) <> 0 -> proper_tri t) by (intros t N; apply proper_nrm; intros E; apply N; now rewrite E).
  split; [apply PR; unfold nrm, cross; gunf; cbn; lra|]. split; [apply PR; unfold nrm, cross; gunf; cbn; lra|]. split; [|split].
  - intros p (u & v & w & _ & _ & _ & _ & ->). unfold above. rewrite vol_nrm. unfold Rdiv. apply Rmult_eq_0_compat_r. unfold cross. gunf. cbn. ring.
  - intros e e' [ -> |[ -> | -> ]] [ -> |[ -> | -> ]]; unfold cross; gunf; cbn; lra.
  - exists (V3 2 1 0). split; [exists (1 / 3), (1 / 3), (1 / 3)|exists (1 / 2 - 1 / 8 + 1 / 36 - 1 / 24 - 1 / 36), (1 / 3), (1 / 3)]; repeat split; try lra; apply vec_ext; unfold plus, scale; cbn; lra.
Qed.
