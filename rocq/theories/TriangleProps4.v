(** C47: nearest pairs of a triangle and a segment, line or triangle. *)
From Coq Require Import Reals Lra Psatz Bool List Classical.
From Verif Require Import Num NumR ScalarModel ScalarProofs Vec3Model Vec2Model GeoTypes MatModel GMatProofs GeoSpec GeoLemmas Vec3Props AabbSpec LineModel LineSpec LineProofs LineProofs2 LineProps
  MatSpec MatProofs MatProofs2 PlaneModel PlaneSpec PlaneProps PlaneProps2 PlaneProps3 PlaneProps4 TriangleModel TriangleSpec TriangleProps TriangleProps2 SatTheory SatModel SatProps.
Import ListNotations.
Open Scope R_scope.

(** Moving from nonnegative values towards values one of which is negative, the first zero is met with all values still nonnegative. *)
Definition mix (l p q : R) : R := (1 - l) * p + l * q.
Lemma exit (ps : list (R * R)) : (forall p q, In (p, q) ps -> 0 <= p) -> (exists p q, In (p, q) ps /\ q < 0) ->
  exists l, 0 <= l <= 1 /\ (forall p q, In (p, q) ps -> 0 <= mix l p q) /\ exists p q, In (p, q) ps /\ mix l p q = 0.
Proof.
  enough (G : forall ps, (forall p q, In (p, q) ps -> 0 <= p) -> (forall p q, In (p, q) ps -> 0 <= q) \/
      exists l, 0 <= l <= 1 /\ (forall p q, In (p, q) ps -> 0 <= mix l p q) /\ exists p q, In (p, q) ps /\ mix l p q = 0 /\ q < 0).
  { intros H (p & q & I & Q). destruct (G ps H) as [N|(l & L & A & p' & q' & I' & E & _)]; [specialize (N p q I); lra|]. exists l. split; [easy|]. split; [easy|]. now exists p', q'. }
  clear ps. unfold mix. induction ps as [|[p q] ps IH]; intros H; [left; intros ? ? []|].
  pose proof (H p q (or_introl eq_refl)) as P. destruct IH as [N|(l & L & A & p' & q' & I' & E & Q')]; [intros; eapply H; right; eassumption| |].
  - destruct (Rle_dec 0 q) as [Q|Q]; [left; intros p' q' [X|X]; [injection X as <- <-; easy|now apply (N p')]|]. right. exists (p / (p - q)).
    assert (L : 0 <= p / (p - q) <= 1).
    { split; [apply Rmult_le_pos; [easy|left; apply Rinv_0_lt_compat; lra]|]. apply Rmult_le_reg_r with (p - q); [lra|]. unfold Rdiv. rewrite Rmult_assoc, Rinv_l by lra. lra. }
    split; [easy|]. assert (Z : (1 - p / (p - q)) * p + p / (p - q) * q = 0) by (field; lra). split.
    + intros p' q' [X|X]; [injection X as <- <-; lra|]. specialize (N p' q' X). pose proof (H p' q' (or_intror X)). set (l := p / (p - q)) in *. nra.
    + exists p, q. split; [now left|]. split; [easy|lra].
  - right. destruct (Rle_dec 0 ((1 - l) * p + l * q)) as [K|K].
    + exists l. split; [easy|]. split; [intros p'' q'' [X|X]; [now injection X as <- <-|now apply A]|]. exists p', q'. split; [now right|now split].
    + assert (Q : q < 0) by nra. exists (p / (p - q)).
      assert (L2 : 0 <= p / (p - q) < l).
      { split; [apply Rmult_le_pos; [easy|left; apply Rinv_0_lt_compat; lra]|]. apply Rmult_lt_reg_r with (p - q); [lra|]. unfold Rdiv. rewrite Rmult_assoc, Rinv_l by lra. lra. }
      assert (Z : (1 - p / (p - q)) * p + p / (p - q) * q = 0) by (field; lra). split; [lra|]. split.
      * intros p'' q'' [X|X]; [injection X as <- <-; lra|]. specialize (A p'' q'' X). pose proof (H p'' q'' (or_intror X)). set (m := p / (p - q)) in *. clearbody m. destruct (Rle_dec 0 q''); nra.
      * exists p, q. split; [now left|now split].
Qed.
Definition lerp (l : R) (x y : pt) : pt := plus (scale (1 - l) x) (scale l y).
Lemma lerp_bary t l u v w u' v' w' : lerp l (bary t u v w) (bary t u' v' w') = bary t (mix l u u') (mix l v v') (mix l w w').
Proof. unfold lerp, bary, mix. apply vec_ext; gunf; ring. Qed.
Lemma lerp_along l p d k k' : lerp l (along p d k) (along p d k') = along p d (mix l k k').
Proof. unfold lerp, along, mix. apply vec_ext; gunf; ring. Qed.
Lemma bary_in t u v w : 0 <= u -> 0 <= v -> 0 <= w -> u + v + w = 1 -> in_triangle t (bary t u v w).
Proof. intros. now exists u, v, w. Qed.
Lemma bary_edge t u v w : 0 <= u -> 0 <= v -> 0 <= w -> u + v + w = 1 -> u = 0 \/ v = 0 \/ w = 0 -> exists e, edge_of t e /\ on_segment e (bary t u v w).
Proof.
  intros U V W E [ -> |[ -> | -> ]].
  - exists (Seg (tri_b t) (tri_c t)). split; [right; now left|]. exists w. split; [lra|]. replace v with (1 - w) by lra. unfold bary. apply vec_ext; gunf; cbn; ring.
  - exists (Seg (tri_c t) (tri_a t)). split; [right; now right|]. exists u. split; [lra|]. replace w with (1 - u) by lra. unfold bary. apply vec_ext; gunf; cbn; ring.
  - exists (Seg (tri_a t) (tri_b t)). split; [now left|]. exists v. split; [lra|]. replace u with (1 - v) by lra. unfold bary. apply vec_ext; gunf; cbn; ring.
Qed.
Lemma edge_in t e x : edge_of t e -> on_segment e x -> in_triangle t x.
Proof.
  intros H (k & K & ->). destruct H as [ -> |[ -> | -> ]]; cbn [seg_a seg_b].
  - exists (1 - k), k, 0. repeat split; try lra. apply vec_ext; gunf; ring.
  - exists 0, (1 - k), k. repeat split; try lra. apply vec_ext; gunf; ring.
  - exists k, 0, (1 - k). repeat split; try lra. apply vec_ext; gunf; ring.
Qed.
Lemma dist_scaled a b c d k : 0 <= k <= 1 -> minus a b = scale k (minus c d) -> dist a b <= dist c d.
Proof.
  intros K E. unfold dist. rewrite E. unfold norm. apply sqrt_le_1_alt. rewrite dot_scale_l, dot_scale_r. pose proof (dot_pos (minus c d)) as DP. set (z := dot (minus c d) (minus c d)) in *. clearbody z. clear E. assert (0 <= k * k <= 1) by nra. nra.
Qed.
(** Both targets are one point, or the difference of the targets is that of the points. *)
Lemma lerp_shrinks l x y X Y : 0 <= l <= 1 -> X = Y \/ minus X Y = minus x y -> dist (lerp l x X) (lerp l y Y) <= dist x y.
Proof.
  intros L [<-|E].
  - apply dist_scaled with (1 - l); [lra|]. unfold lerp. apply vec_ext; gunf; ring.
  - apply dist_scaled with 1; [lra|]. unfold lerp. apply vec_ext; [apply (f_equal vx) in E|apply (f_equal vy) in E|apply (f_equal vz) in E]; gunf; cbn in *; nra.
Qed.
Lemma mix_sum l u v w u' v' w' : u + v + w = 1 -> u' + v' + w' = 1 -> mix l u u' + mix l v v' + mix l w w' = 1.
Proof. intros. unfold mix. replace ((1 - l) * u + l * u' + ((1 - l) * v + l * v') + ((1 - l) * w + l * w')) with ((1 - l) * (u + v + w) + l * (u' + v' + w')) by ring. rewrite H, H0. ring. Qed.
Lemma mix_one l k k' : mix l (1 - k) (1 - k') = 1 - mix l k k'. Proof. unfold mix. ring. Qed.

Lemma plane_line (t : triangle R) y d : dot (nrm t) d <> 0 -> proper_tri t -> exists k, in_tri_plane t (along y d k).
Proof.
  intros D P. exists ((dot (nrm t) (tri_a t) - dot (nrm t) y) / dot (nrm t) d). apply plane_bary; [exact P|]. unfold along. rewrite dot_plus_r, dot_scale_r. field. exact D.
Qed.
Lemma not_in_bary t u v w : u + v + w = 1 -> ~ in_triangle t (bary t u v w) -> u < 0 \/ v < 0 \/ w < 0.
Proof. intros E N. destruct (Rlt_dec u 0); [tauto|]. destruct (Rlt_dec v 0); [tauto|]. destruct (Rlt_dec w 0); [tauto|]. exfalso. apply N. apply bary_in; lra. Qed.
(** A pair of points of a triangle and a disjoint segment can be moved, without getting further apart, until one is on an edge or the other is an end. *)
Lemma tri_seg_reduce (t : triangle R) (s : segment R) x y : proper_tri t -> (forall p, in_triangle t p -> on_segment s p -> False) -> in_triangle t x -> on_segment s y ->
  exists x' y', dist x' y' <= dist x y /\
    ((exists e, edge_of t e /\ on_segment e x' /\ on_segment s y') \/ (in_triangle t x' /\ (y' = seg_a s \/ y' = seg_b s))).
Proof.
  intros P DIS (u & v & w & U & V & W & E & EX) (k & K & EY). change (x = bary t u v w) in EX. change (y = along (seg_a s) (sdir s) k) in EY.
  assert (MAIN : forall u' v' w' k', u' + v' + w' = 1 -> (u' < 0 \/ v' < 0 \/ w' < 0 \/ k' < 0 \/ 1 < k') ->
    bary t u' v' w' = along (seg_a s) (sdir s) k' \/ minus (bary t u' v' w') (along (seg_a s) (sdir s) k') = minus x y ->
    exists x' y', dist x' y' <= dist x y /\ ((exists e, edge_of t e /\ on_segment e x' /\ on_segment s y') \/ (in_triangle t x' /\ (y' = seg_a s \/ y' = seg_b s)))).
  { intros u' v' w' k' E' N T.
    destruct (exit [(u, u'); (v, v'); (w, w'); (k, k'); (1 - k, 1 - k')]) as (l & L & A & p & q & I & Z).
    - intros p q [X|[X|[X|[X|[X|[]]]]]]; injection X as <- <-; lra.
    - destruct N as [N|[N|[N|[N|N]]]]; [exists u, u'|exists v, v'|exists w, w'|exists k, k'|exists (1 - k), (1 - k')]; (split; [cbn; tauto|lra]).
    - exists (lerp l x (bary t u' v' w')), (lerp l y (along (seg_a s) (sdir s) k')). split; [now apply lerp_shrinks|].
      rewrite EX, EY, lerp_bary, lerp_along. pose proof (mix_sum l _ _ _ _ _ _ E E') as S.
      assert (A1 := A u u' (or_introl eq_refl)). assert (A2 := A v v' (or_intror (or_introl eq_refl))). assert (A3 := A w w' (or_intror (or_intror (or_introl eq_refl)))).
      assert (A4 := A k k' (or_intror (or_intror (or_intror (or_introl eq_refl))))). assert (A5 := A (1 - k) (1 - k') (or_intror (or_intror (or_intror (or_intror (or_introl eq_refl)))))). rewrite mix_one in A5.
      assert (ON : on_segment s (along (seg_a s) (sdir s) (mix l k k'))) by (exists (mix l k k'); split; [lra|easy]).
      assert (EDG : mix l u u' = 0 \/ mix l v v' = 0 \/ mix l w w' = 0 -> exists e, edge_of t e /\ on_segment e (bary t (mix l u u') (mix l v v') (mix l w w')) /\ on_segment s (along (seg_a s) (sdir s) (mix l k k'))).
      { intros Q. destruct (bary_edge t _ _ _ A1 A2 A3 S Q) as (e & I1 & I2). now exists e. }
      destruct I as [X|[X|[X|[X|[X|[]]]]]]; injection X as <- <-; [left; tauto|left; tauto|left; tauto| |]; right; (split; [now apply bary_in|]).
      + left. rewrite Z. apply along_0.
      + right. rewrite mix_one in Z. replace (mix l k k') with 1 by lra. apply sdir_1. }
  destruct (Req_dec (dot (nrm t) (sdir s)) 0) as [D|D].
  - destruct (classic (sdir s = origin)) as [SZ|SN].
    + exists x, y. split; [lra|]. right. split; [rewrite EX; now apply bary_in|]. left. rewrite EY, SZ. unfold along, origin. apply vec_ext; gunf; cbn; ring.
    + assert (IP : in_tri_plane t (plus x (scale 2 (sdir s)))).
      { apply plane_bary; [exact P|]. rewrite dot_plus_r, dot_scale_r, D. rewrite EX, (bary_nrm t u v w E). ring. }
      destruct IP as (u' & v' & w' & E' & EB). apply (MAIN u' v' w' (k + 2) E'); [lra|]. right. rewrite <- EB, EY. unfold along. apply vec_ext; gunf; ring.
  - destruct (plane_line t (seg_a s) (sdir s) D P) as (k' & u' & v' & w' & E' & EB). apply (MAIN u' v' w' k' E'); [|left; symmetry; exact EB].
    destruct (Rlt_dec k' 0); [tauto|]. destruct (Rlt_dec 1 k'); [tauto|]. destruct (not_in_bary t u' v' w' E') as [|[|]]; try tauto.
    intros Q. apply (DIS (bary t u' v' w') Q). exists k'. split; [lra|]. rewrite <- EB. reflexivity.
Qed.
(** The same for a line. *)
Lemma tri_line_reduce (t : triangle R) (o d : pt) x k : proper_tri t -> d <> origin -> (forall k p, in_triangle t p -> p = along o d k -> False) -> in_triangle t x ->
  exists x' k', dist x' (along o d k') <= dist x (along o d k) /\ exists e, edge_of t e /\ on_segment e x'.
Proof.
  intros P DN DIS (u & v & w & U & V & W & E & EX). change (x = bary t u v w) in EX.
  assert (MAIN : forall u' v' w' k', u' + v' + w' = 1 -> (u' < 0 \/ v' < 0 \/ w' < 0) -> bary t u' v' w' = along o d k' \/ minus (bary t u' v' w') (along o d k') = minus x (along o d k) ->
    exists x' k', dist x' (along o d k') <= dist x (along o d k) /\ exists e, edge_of t e /\ on_segment e x').
  { intros u' v' w' k' E' N T.
    destruct (exit [(u, u'); (v, v'); (w, w')]) as (l & L & A & p & q & I & Z).
    - intros p q [X|[X|[X|[]]]]; injection X as <- <-; lra.
    - destruct N as [N|[N|N]]; [exists u, u'|exists v, v'|exists w, w']; (split; [cbn; tauto|lra]).
    - exists (lerp l x (bary t u' v' w')), (mix l k k'). rewrite <- lerp_along. split; [now apply lerp_shrinks|]. rewrite EX, lerp_bary. pose proof (mix_sum l _ _ _ _ _ _ E E') as S.
      assert (A1 := A u u' (or_introl eq_refl)). assert (A2 := A v v' (or_intror (or_introl eq_refl))). assert (A3 := A w w' (or_intror (or_intror (or_introl eq_refl)))).
      apply (bary_edge t _ _ _ A1 A2 A3 S). destruct I as [X|[X|[X|[]]]]; injection X as <- <-; tauto. }
  destruct (Req_dec (dot (nrm t) d) 0) as [D|D].
  - assert (IP : in_tri_plane t (plus (tri_a t) d)) by (apply plane_bary; [exact P|]; rewrite dot_plus_r, D; ring).
    destruct IP as (f & g & h & EF & EB).
    assert (ED : d = plus (scale g (t0 t)) (scale h (t1 t))).
    { unfold t0, t1. replace f with (1 - g - h) in EB by lra. unfold bary in EB. apply vec_ext; [apply (f_equal vx) in EB|apply (f_equal vy) in EB|apply (f_equal vz) in EB]; gunf; cbn in *; lra. }
    assert (GH : g < 0 \/ h < 0 \/ - (g + h) < 0).
    { destruct (Rlt_dec g 0); [tauto|]. destruct (Rlt_dec h 0); [tauto|]. destruct (Rlt_dec (- (g + h)) 0); [tauto|]. exfalso. apply DN. rewrite ED. replace g with 0 by lra. replace h with 0 by lra. apply vec_ext; unfold origin; gunf; cbn; ring. }
    assert (STEP : forall m, plus x (scale m d) = bary t (u - m * (g + h)) (v + m * g) (w + m * h)) by (intros m; rewrite EX, ED; unfold bary, t0, t1; apply vec_ext; gunf; ring).
    assert (BIG : forall z, z < 0 -> forall c, c <= 1 -> c + (-2 / z) * z < 0) by (intros z Zn c Cc; replace (-2 / z * z) with (-2) by (field; lra); lra).
    assert (FIN : forall m, (u - m * (g + h) < 0 \/ v + m * g < 0 \/ w + m * h < 0) -> exists x' k', dist x' (along o d k') <= dist x (along o d k) /\ exists e, edge_of t e /\ on_segment e x').
    { intros m M. apply (MAIN _ _ _ (k + m)) with (2 := M); [ring_simplify; lra|]. right. rewrite <- STEP. unfold along. apply vec_ext; gunf; ring. }
    destruct GH as [G|[G|G]].
    + apply (FIN (-2 / g)). right; left. apply BIG; lra.
    + apply (FIN (-2 / h)). right; right. apply BIG; lra.
    + apply (FIN (-2 / - (g + h))). left. pose proof (BIG _ G u ltac:(lra)). lra.
  - destruct (plane_line t o d D P) as (k' & u' & v' & w' & E' & EB). apply (MAIN u' v' w' k' E'); [|left; now symmetry]. apply (not_in_bary t u' v' w' E'). intros Q. now apply (DIS k' (bary t u' v' w') Q).
Qed.
(** Two disjoint triangles: the pair can be moved until one point is on an edge. *)
Lemma tri_tri_reduce (t t' : triangle R) x y : proper_tri t -> proper_tri t' -> (forall p, in_triangle t p -> in_triangle t' p -> False) -> in_triangle t x -> in_triangle t' y ->
  exists x' y', dist x' y' <= dist x y /\ ((exists e, edge_of t e /\ on_segment e x' /\ in_triangle t' y') \/ (exists e, edge_of t' e /\ on_segment e y' /\ in_triangle t x')).
Proof.
  intros P P' DIS (u & v & w & U & V & W & E & EX) (f & g & h & F & G & H & E1 & EY). change (x = bary t u v w) in EX. change (y = bary t' f g h) in EY.
  assert (MAIN : forall u' v' w' f' g' h', u' + v' + w' = 1 -> f' + g' + h' = 1 -> (u' < 0 \/ v' < 0 \/ w' < 0 \/ f' < 0 \/ g' < 0 \/ h' < 0) ->
    bary t u' v' w' = bary t' f' g' h' \/ minus (bary t u' v' w') (bary t' f' g' h') = minus x y ->
    exists x' y', dist x' y' <= dist x y /\ ((exists e, edge_of t e /\ on_segment e x' /\ in_triangle t' y') \/ (exists e, edge_of t' e /\ on_segment e y' /\ in_triangle t x'))).
  { intros u' v' w' f' g' h' E' E1' N T.
    destruct (exit [(u, u'); (v, v'); (w, w'); (f, f'); (g, g'); (h, h')]) as (l & L & A & p & q & I & Z).
    - intros p q [X|[X|[X|[X|[X|[X|[]]]]]]]; injection X as <- <-; lra.
    - destruct N as [N|[N|[N|[N|[N|N]]]]]; [exists u, u'|exists v, v'|exists w, w'|exists f, f'|exists g, g'|exists h, h']; (split; [cbn; tauto|lra]).
    - exists (lerp l x (bary t u' v' w')), (lerp l y (bary t' f' g' h')). split; [now apply lerp_shrinks|].
      rewrite EX, EY, !lerp_bary. pose proof (mix_sum l _ _ _ _ _ _ E E') as S. pose proof (mix_sum l _ _ _ _ _ _ E1 E1') as S1.
      assert (A1 : 0 <= mix l u u') by (apply A; cbn; tauto). assert (A2 : 0 <= mix l v v') by (apply A; cbn; tauto). assert (A3 : 0 <= mix l w w') by (apply A; cbn; tauto).
      assert (A4 : 0 <= mix l f f') by (apply A; cbn; tauto). assert (A5 : 0 <= mix l g g') by (apply A; cbn; tauto). assert (A6 : 0 <= mix l h h') by (apply A; cbn; tauto).
      assert (I1 := bary_in t _ _ _ A1 A2 A3 S). assert (I2 := bary_in t' _ _ _ A4 A5 A6 S1).
      assert (Q : (mix l u u' = 0 \/ mix l v v' = 0 \/ mix l w w' = 0) \/ (mix l f f' = 0 \/ mix l g g' = 0 \/ mix l h h' = 0)) by (destruct I as [X|[X|[X|[X|[X|[X|[]]]]]]]; injection X as <- <-; tauto).
      destruct Q as [Q|Q]; [left; destruct (bary_edge t _ _ _ A1 A2 A3 S Q) as (e & J1 & J2); now exists e|right; destruct (bary_edge t' _ _ _ A4 A5 A6 S1 Q) as (e & J1 & J2); now exists e]. }
  set (c := cross (nrm t) (nrm t')). destruct (classic (c = origin)) as [C|C].
  - pose proof P as PN. apply proper_nrm in PN.
    assert (D0 : dot (nrm t') (t0 t) = 0).
    { rewrite dot_comm. apply (orth_same (nrm t)); [exact PN|exact C|]. rewrite dot_comm. apply nrm_orth. }
    assert (IP : in_tri_plane t' (plus y (scale 2 (t0 t)))) by (apply plane_bary; [exact P'|]; rewrite dot_plus_r, dot_scale_r, D0, EY, (bary_nrm t' f g h E1); ring).
    destruct IP as (f' & g' & h' & E1' & EB). apply (MAIN (u - 2) (v + 2) w f' g' h'); [lra|exact E1'|lra|]. right. rewrite <- EB, EX. unfold bary, t0. apply vec_ext; gunf; ring.
  - set (d := cross (nrm t) c). assert (DD : dot (nrm t') d <> 0).
    { unfold d. replace (dot (nrm t') (cross (nrm t) c)) with (- dot c c) by (unfold c, cross; gunf; ring). intros Q. apply C, dot_zero. lra. }
    destruct (plane_line t' (tri_a t) d DD P') as (k & f' & g' & h' & E1' & EB).
    assert (IP : in_tri_plane t (along (tri_a t) d k)). { apply plane_bary; [exact P|]. unfold along. rewrite dot_plus_r, dot_scale_r. unfold d. rewrite cross_dot_l. ring. }
    destruct IP as (u' & v' & w' & E' & EA). apply (MAIN u' v' w' f' g' h' E' E1'); [|left; now rewrite <- EA, <- EB].
    destruct (classic (in_triangle t (bary t u' v' w'))) as [I1|I1]; [|destruct (not_in_bary t u' v' w' E' I1) as [|[|]]; tauto].
    destruct (not_in_bary t' f' g' h' E1') as [|[|]]; try tauto. intros I2. rewrite <- EB in I2. rewrite <- EA in I1. exact (DIS _ I1 I2).
Qed.

Lemma edge_proper t e : proper_tri t -> edge_of t e -> proper_seg e.
Proof.
  intros P H. destruct (edges_nz t P) as (N0 & N1 & N2). unfold proper_seg. destruct H as [ -> |[ -> | -> ]]; cbn [seg_a seg_b]; intros Q.
  - apply N0. unfold t0. rewrite <- Q. apply minus_self_o.
  - apply N2. unfold t2. rewrite <- Q. apply minus_self_o.
  - apply N1. unfold t1. rewrite <- Q. apply minus_self_o.
Qed.
Lemma sqd_le_dist a b c d : sqd a b <= sqd c d <-> dist a b <= dist c d.
Proof. split; [apply dist_le|]. intros H. rewrite !sqd_dist. pose proof (norm_pos (minus a b)). pose proof (norm_pos (minus c d)). change (norm (minus a b)) with (dist a b) in *. change (norm (minus c d)) with (dist c d) in *. nra. Qed.
(** The nearest of the three edges. *)
Lemma nearestEdge_R (B : pt -> Prop) t cand at_ : (forall e, edge_of t e -> let '(p, d) := cand e in nearest_pair (on_segment e) B p (at_ d)) ->
  let '(p, uv, d) := nearestEdge t cand at_ in
  (exists e, edge_of t e /\ on_segment e p) /\ B (at_ d) /\ uv = Tri_BarycentricUV t p /\ forall e x y, edge_of t e -> on_segment e x -> B y -> dist p (at_ d) <= dist x y.
Proof.
  intros H. destruct t as [a b c]. unfold nearestEdge. set (uvf := @Tri_BarycentricUV R Num_R (Tri a b c)). clearbody uvf.
  pose proof (H (Seg a b) (or_introl eq_refl)) as H1. pose proof (H (Seg b c) (or_intror (or_introl eq_refl))) as H2. pose proof (H (Seg c a) (or_intror (or_intror eq_refl))) as H3.
  destruct (cand (Seg a b)) as [p1 d1], (cand (Seg b c)) as [p2 d2], (cand (Seg c a)) as [p3 d3]. rewrite (DistanceSq_R p1), (DistanceSq_R p2), (DistanceSq_R p3). rsimpl.
  destruct H1 as (A1 & B1 & M1), H2 as (A2 & B2 & M2), H3 as (A3 & B3 & M3).
  assert (X : forall p d e, edge_of (Tri a b c) e -> on_segment e p -> B (at_ d) -> sqd p (at_ d) <= sqd p1 (at_ d1) -> sqd p (at_ d) <= sqd p2 (at_ d2) -> sqd p (at_ d) <= sqd p3 (at_ d3) ->
    (exists e, edge_of (Tri a b c) e /\ on_segment e p) /\ B (at_ d) /\ uvf p = uvf p /\ forall e x y, edge_of (Tri a b c) e -> on_segment e x -> B y -> dist p (at_ d) <= dist x y).
  { intros p d e I1 I2 I3 L1 L2 L3. rewrite sqd_le_dist in L1, L2, L3. split; [now exists e|]. split; [exact I3|]. split; [reflexivity|]. intros e' x y [ -> |[ -> | -> ]] J1 J2; [specialize (M1 x y J1 J2)|specialize (M2 x y J1 J2)|specialize (M3 x y J1 J2)]; lra. }
  destruct (Rleb_spec (sqd p1 (at_ d1)) (sqd p2 (at_ d2))) as [L1|L1]; cbn [andb]; [destruct (Rleb_spec (sqd p1 (at_ d1)) (sqd p3 (at_ d3))) as [L2|L2]; cbn [andb]|].
  - cbv beta iota; apply (X p1 d1 (Seg a b)); try assumption; [now left|lra].
  - destruct (Rleb_spec (sqd p2 (at_ d2)) (sqd p3 (at_ d3))) as [L3|L3]; [lra|]. cbv beta iota; apply (X p3 d3 (Seg c a)); try assumption; try lra. now right; right.
  - destruct (Rleb_spec (sqd p2 (at_ d2)) (sqd p3 (at_ d3))) as [L3|L3].
    + cbv beta iota; apply (X p2 d2 (Seg b c)); try assumption; try lra. now right; left.
    + cbv beta iota; apply (X p3 d3 (Seg c a)); try assumption; try lra. now right; right.
Qed.
Lemma edge_seg t l : proper_tri t -> proper_seg l ->
  let '(p, uv, d) := Tri_ClosestPointToEdgeSeg t l in
  (exists e, edge_of t e /\ on_segment e p) /\ on_segment l (Seg_GetPoint l d) /\ uv = Tri_BarycentricUV t p /\ forall e x y, edge_of t e -> on_segment e x -> on_segment l y -> dist p (Seg_GetPoint l d) <= dist x y.
Proof.
  intros P L. apply nearestEdge_R. intros e E. pose proof (C43_segment_segment e l (edge_proper t e P E) L) as H. destruct (Seg_ClosestPointSeg e l) as [[p d] d2]. rewrite Seg_GetPoint_R. apply H.
Qed.
Lemma edge_line t l : proper_tri t -> unitv (ldir l) ->
  let '(p, uv, d) := Tri_ClosestPointToEdgeLine t l in
  (exists e, edge_of t e /\ on_segment e p) /\ on_line l (Line_GetPoint l d) /\ uv = Tri_BarycentricUV t p /\ forall e x y, edge_of t e -> on_segment e x -> on_line l y -> dist p (Line_GetPoint l d) <= dist x y.
Proof.
  intros P L. apply nearestEdge_R. intros e E. pose proof (C43_segment_line e l (edge_proper t e P E) L) as H. destruct (Seg_ClosestPointLine e l) as [[p d] d2]. rewrite Line_GetPoint_R. apply H.
Qed.
(** [ClosestPointToTriangleEdge]: the nearest pair of the outline and the line or segment. *)
Definition on_outline (t : triangle R) (p : pt) : Prop := exists e, edge_of t e /\ on_segment e p.
Theorem C47_outline (t : triangle R) (s : segment R) (l : line R) : proper_tri t -> proper_seg s -> unitv (ldir l) ->
  (let '(p, uv, d) := Tri_ClosestPointToEdgeSeg t s in nearest_pair (on_outline t) (on_segment s) p (along (seg_a s) (minus (seg_b s) (seg_a s)) d) /\ p = bary t (1 - x2 uv - y2 uv) (x2 uv) (y2 uv)) /\
  (let '(p, uv, d) := Tri_ClosestPointToEdgeLine t l in nearest_pair (on_outline t) (on_line l) p (along (lpos l) (ldir l) d) /\ p = bary t (1 - x2 uv - y2 uv) (x2 uv) (y2 uv)).
Proof.
  intros P S L.
  assert (UV : forall p, on_outline t p -> p = bary t (1 - x2 (Tri_BarycentricUV t p) - y2 (Tri_BarycentricUV t p)) (x2 (Tri_BarycentricUV t p)) (y2 (Tri_BarycentricUV t p))).
  { intros p (e & E & O). destruct (edge_in t e p E O) as (u & v & w & U & V & W & Q & EP). change (p = bary t u v w) in EP. assert (UVp : Tri_BarycentricUV t p = V2 v w) by (unfold Tri_BarycentricUV; now rewrite EP, (C46_barycentric t u v w P Q)). rewrite UVp. cbn [x2 y2]. replace (1 - v - w) with u by lra. exact EP. }
  split.
  - pose proof (edge_seg t s P S) as H. destruct (Tri_ClosestPointToEdgeSeg t s) as [[p uv] d]. destruct H as (O & I & -> & M). rewrite Seg_GetPoint_R in *. fold (sdir s). split; [|now apply UV].
    split; [exact O|]. split; [exact I|]. intros x y (e & E & J) Y. now apply (M e).
  - pose proof (edge_line t l P L) as H. destruct (Tri_ClosestPointToEdgeLine t l) as [[p uv] d]. destruct H as (O & I & -> & M). rewrite Line_GetPoint_R in *. split; [|now apply UV].
    split; [exact O|]. split; [exact I|]. intros x y (e & E & J) Y. now apply (M e).
Qed.
Lemma in_enlarged_0 t p e : 0 <= e -> in_triangle t p -> in_enlarged t e p.
Proof. intros E (u & v & w & U & V & W & S & H). exists u, v, w. repeat split; try lra. exact H. Qed.
Lemma Tri_Point_R t u v : Tri_Point t u v = bary t (1 - u - v) u v.
Proof. unfold Tri_Point, bary. vunf. apply vec_ext; gunf; cbn; ring. Qed.
(** [ClosestPoint(LineSegment)]. *)
Theorem C47_segment (t : triangle R) (s : segment R) : proper_tri t -> proper_seg s -> let '(p, q) := Tri_ClosestPointSeg t s in
  (on_segment s q /\ (in_triangle t p \/ (p = q /\ in_enlarged t tol p))) /\
  ((exists c, in_triangle t c /\ on_segment s c) -> tol < Rabs (tri_det t (minus (seg_b s) (seg_a s))) -> p = q /\ in_triangle t p) /\
  ((forall c, in_triangle t c -> on_segment s c -> False) -> (Rabs (tri_det t (minus (seg_b s) (seg_a s))) <= tol \/ forall c, in_enlarged t tol c -> on_segment s c -> False) -> nearest_pair (in_triangle t) (on_segment s) p q).
Proof.
  intros P S. unfold Tri_ClosestPointSeg. change (vsub (seg_b s) (seg_a s)) with (sdir s). fold (sdir s).
  set (hit := match IntersectLineTri (seg_a s) (sdir s) (tri_a t) (tri_b t) (tri_c t) with Some (d, u, v) => if (n0 <=? d)%num && (d <=? n1)%num then Some (d, u, v) else None | None => None end).
  destruct hit as [[[d u] v]|] eqn:EH.
  - unfold hit in EH. destruct IntersectLineTri as [[[d' u'] v']|] eqn:EI in EH; [|discriminate]. rsimpl. destruct (Rleb_spec 0 d'); [|discriminate]. destruct (Rleb_spec d' 1); [|discriminate]. cbn [andb] in EH. injection EH as -> -> ->.
    destruct (LineTri_sound _ _ _ _ _ _ EI) as (EN & EB & DT). rewrite Seg_GetPoint_R, Tri_Point_R, <- EB.
    assert (ON : on_segment s (along (seg_a s) (sdir s) d)) by (exists d; split; [lra|reflexivity]). split; [split; [exact ON|right; now split]|]. split.
    + intros (c & I & k & K & EC) D. split; [reflexivity|]. change (c = along (seg_a s) (sdir s) k) in EC. rewrite EC in I. destruct (LineTri_complete _ _ _ _ DT I) as (u' & v' & EI' & _ & _). rewrite EI in EI'. injection EI' as -> _ _. exact I.
    + intros DIS [D|D]; [lra|]. exfalso. exact (D _ EN ON).
  - assert (NH : tol < Rabs (tri_det t (sdir s)) -> forall c, in_triangle t c -> on_segment s c -> False).
    { intros D c I (k & K & EC). change (c = along (seg_a s) (sdir s) k) in EC. rewrite EC in I. destruct (LineTri_complete _ _ _ _ D I) as (u & v & EI & _). unfold hit in EH. rewrite EI in EH. rsimpl.
      rewrite (proj2 (Rleb_true 0 k)), (proj2 (Rleb_true k 1)) in EH by lra. discriminate. }
    clear hit EH. pose proof (edge_seg t s P S) as H. destruct (Tri_ClosestPointToEdgeSeg t s) as [[p1 uv] d1]. destruct H as (O1 & I1 & _ & M1). pose proof (C47_point t (seg_a s) P) as [Ia Ma]. pose proof (C47_point t (seg_b s) P) as [Ib Mb].
    set (pa := Tri_ClosestPoint t (seg_a s)) in *. set (pb := Tri_ClosestPoint t (seg_b s)) in *. clearbody pa pb. rewrite (DistanceSq_R p1), (DistanceSq_R pa), (DistanceSq_R pb). set (q1 := Seg_GetPoint s d1) in *. clearbody q1. rsimpl.
    assert (SA : on_segment s (seg_a s)) by (exists 0; split; [lra|]; apply vec_ext; gunf; ring). assert (SB : on_segment s (seg_b s)) by (exists 1; split; [lra|]; apply vec_ext; gunf; ring).
    assert (IN1 : in_triangle t p1) by (destruct O1 as (e & E & J); exact (edge_in t e p1 E J)).
    assert (X : forall p q, in_triangle t p -> on_segment s q -> dist p q <= dist p1 q1 -> dist p q <= dist pa (seg_a s) -> dist p q <= dist pb (seg_b s) ->
      (on_segment s q /\ (in_triangle t p \/ (p = q /\ in_enlarged t tol p))) /\ ((exists c, in_triangle t c /\ on_segment s c) -> tol < Rabs (tri_det t (sdir s)) -> p = q /\ in_triangle t p) /\
      ((forall c, in_triangle t c -> on_segment s c -> False) -> (Rabs (tri_det t (sdir s)) <= tol \/ forall c, in_enlarged t tol c -> on_segment s c -> False) -> nearest_pair (in_triangle t) (on_segment s) p q)).
    { intros p q IP IQ L1 L2 L3. split; [split; [exact IQ|now left]|]. split; [intros (c & C1 & C2) D; exfalso; exact (NH D c C1 C2)|]. intros DIS _. split; [exact IP|]. split; [exact IQ|]. intros x y IX IY.
      destruct (tri_seg_reduce t s x y P DIS IX IY) as (x' & y' & LE & [(e & E & J1 & J2)|(J1 & [ -> | -> ])]).
      - specialize (M1 e x' y' E J1 J2). lra.
      - specialize (Ma x' J1). lra.
      - specialize (Mb x' J1). lra. }
    destruct (Rleb_spec (sqd p1 q1) (sqd pa (seg_a s))) as [L1|L1]; cbn [andb]; [destruct (Rleb_spec (sqd p1 q1) (sqd pb (seg_b s))) as [L2|L2]|].
    + apply X; try assumption; [lra|now apply sqd_le_dist|now apply sqd_le_dist].
    + destruct (Rleb_spec (sqd pa (seg_a s)) (sqd pb (seg_b s))) as [L3|L3]; [lra|]. apply X; try assumption; try (apply sqd_le_dist; lra); lra.
    + destruct (Rleb_spec (sqd pa (seg_a s)) (sqd pb (seg_b s))) as [L3|L3]; apply X; try assumption; try (apply sqd_le_dist; lra); lra.
Qed.
(** [ClosestPoint(Line)]. *)
Theorem C47_line (t : triangle R) (l : line R) : proper_tri t -> unitv (ldir l) -> let '(p, q) := Tri_ClosestPointLine t l in
  (on_line l q /\ (in_triangle t p \/ (p = q /\ in_enlarged t tol p))) /\
  ((exists c, in_triangle t c /\ on_line l c) -> tol < Rabs (tri_det t (ldir l)) -> p = q /\ in_triangle t p) /\
  ((forall c, in_triangle t c -> on_line l c -> False) -> (Rabs (tri_det t (ldir l)) <= tol \/ forall c, in_enlarged t tol c -> on_line l c -> False) -> nearest_pair (in_triangle t) (on_line l) p q).
Proof.
  intros P U. unfold Tri_ClosestPointLine, Tri_IntersectsLine. destruct (IntersectLineTri (lpos l) (ldir l) (tri_a t) (tri_b t) (tri_c t)) as [[[d u] v]|] eqn:EI.
  - destruct (LineTri_sound _ _ _ _ _ _ EI) as (EN & EB & DT). rewrite Line_GetPoint_R. assert (ON : on_line l (along (lpos l) (ldir l) d)) by (now exists d). split; [split; [exact ON|right; now split]|]. split.
    + intros (c & I & k & EC) D. split; [reflexivity|]. rewrite EC in I. destruct (LineTri_complete _ _ _ _ DT I) as (u' & v' & EI' & _ & _). rewrite EI in EI'. injection EI' as -> _ _. exact I.
    + intros DIS [D|D]; [lra|]. exfalso. exact (D _ EN ON).
  - pose proof (edge_line t l P U) as H. destruct (Tri_ClosestPointToEdgeLine t l) as [[p1 uv] d1]. destruct H as (O1 & I1 & _ & M1).
    assert (IN1 : in_triangle t p1) by (destruct O1 as (e & E & J); exact (edge_in t e p1 E J)).
    split; [split; [exact I1|now left]|]. split.
    + intros (c & I & k & EC) D. exfalso. rewrite EC in I. destruct (LineTri_complete _ _ _ _ D I) as (u' & v' & EI' & _). congruence.
    + intros DIS _. split; [exact IN1|]. split; [exact I1|]. intros x y IX (k & ->).
      destruct (tri_line_reduce t (lpos l) (ldir l) x k P) as (x' & k' & LE & e & E & J); [| |exact IX|].
      * intros Z. unfold unitv in U. rewrite Z in U. rewrite dot_origin_r in U. lra.
      * intros k0 p I0 E0. apply (DIS p I0). now exists k0.
      * specialize (M1 e x' (along (lpos l) (ldir l) k') E J (ex_intro _ k' eq_refl)). lra.
Qed.
(** A segment through a triangle with legs of 1/100: two different points are returned. *)
Theorem C47_small_refuted : exists (t : triangle R) (s : segment R), proper_tri t /\ proper_seg s /\ (exists c, in_triangle t c /\ on_segment s c) /\
  let '(p, q) := Tri_ClosestPointSeg t s in p <> q.
Proof.
  exists small_tri, (Seg (V3 (1 / 400) (1 / 400) (1 / 2)) (V3 (1 / 400) (1 / 400) (- (1 / 2)))). pose proof small_tri_proper as P.
  assert (S : proper_seg (Seg (V3 (1 / 400) (1 / 400) (1 / 2)) (V3 (1 / 400) (1 / 400) (- (1 / 2))))) by (unfold proper_seg; cbn; intros Q; injection Q; lra).
  split; [exact P|]. split; [exact S|]. split.
  { exists (V3 (1 / 400) (1 / 400) 0). split; [exists (1 / 2), (1 / 4), (1 / 4); repeat split; try lra; apply vec_ext; unfold small_tri, plus, scale; cbn; lra|]. exists (1 / 2). split; [lra|]. apply vec_ext; gunf; cbn; lra. }
  unfold Tri_ClosestPointSeg. set (s := Seg _ _) in *. rewrite LineTri_R. rewrite (proj2 (Rleb_true _ _)).
  2: { unfold tri_det, volume, minus, small_tri, s. cbn. unfold Rabs. destruct Rcase_abs; lra. }
  pose proof (edge_seg small_tri s P S) as H. destruct (Tri_ClosestPointToEdgeSeg small_tri s) as [[p1 uv] d1]. destruct H as (O1 & I1 & _ & _).
  pose proof (C47_point small_tri (seg_a s) P) as [Ia _]. pose proof (C47_point small_tri (seg_b s) P) as [Ib _].
  assert (ZT : forall p, in_triangle small_tri p -> vz p = 0) by (intros p (u & v & w & _ & _ & _ & _ & ->); unfold small_tri, plus, scale; cbn; ring).
  assert (X1 : forall e p, edge_of small_tri e -> on_segment e p -> on_segment s p -> False).
  { intros e p E (k & K & EP) (j & J & EQ). rewrite EP in EQ. pose proof (f_equal vx EQ) as Q1. pose proof (f_equal vy EQ) as Q2. clear EQ EP. unfold s, small_tri, edge_of in *. destruct E as [ -> |[ -> | -> ]]; cbn in Q1, Q2; lra. }
  repeat match goal with |- context [if ?b then _ else _] => destruct b end.
  - intros Q. destruct O1 as (e & E & J). apply (X1 e p1 E J). rewrite Q. exact I1.
  - intros Q. apply ZT in Ia. rewrite Q in Ia. cbn in Ia. lra.
  - intros Q. apply ZT in Ib. rewrite Q in Ib. cbn in Ib. lra.
Qed.
(** Distances: to a point, a sphere, a capsule; and the sphere test. *)
Theorem C47_distances (t : triangle R) (p : pt) (o : sphere R) (c : capsule R) : proper_tri t -> 0 <= srad o ->
  distance_is (in_triangle t) (single p) (Tri_Distance t p) /\ Tri_DistanceSq t p = Tri_Distance t p * Tri_Distance t p /\
  distance_is (in_triangle t) (in_sphere o) (Tri_DistanceSphere t o) /\
  (fst (Tri_IntersectsSphere t o) = true <-> exists x, in_triangle t x /\ in_sphere o x) /\ nearest (in_triangle t) (spos o) (snd (Tri_IntersectsSphere t o)) /\
  (proper_seg (cap_l c) -> 0 <= cap_r c -> ((exists x, in_triangle t x /\ on_segment (cap_l c) x) -> tol < Rabs (tri_det t (minus (seg_b (cap_l c)) (seg_a (cap_l c))))) ->
    (forall x, in_enlarged t tol x -> on_segment (cap_l c) x -> in_triangle t x) -> distance_is (in_triangle t) (in_capsule c) (Tri_DistanceCapsule t c)).
Proof.
  intros P O. pose proof (C47_point t p P) as N. pose proof (C47_point t (spos o) P) as NO. split; [exact (nearest_distance _ _ _ N)|]. split.
  { unfold Tri_DistanceSq, Tri_Distance. rewrite DistanceSq_R, Distance_R. apply sqd_dist. }
  split. { unfold Tri_DistanceSphere. rewrite Max_R. apply (fat_ext _ _ _ _ (fat_sphere o)). apply distance_fat; [|exact O]. exact (nearest_distance _ _ _ NO). }
  split. { unfold Tri_IntersectsSphere. cbn [fst]. rewrite DistanceSq_R. rsimpl. rewrite Rleb_true. destruct NO as [I M]. set (q := Tri_ClosestPoint t (spos o)) in *. clearbody q. rewrite sqd_dist. pose proof (norm_pos (minus q (spos o))) as DP. change (norm (minus q (spos o))) with (dist q (spos o)) in DP. split.
    - intros H. exists q. split; [exact I|]. unfold in_sphere. rewrite dist_sym. nra.
    - intros (x & IX & SX). specialize (M x IX). unfold in_sphere in SX. rewrite dist_sym in SX. nra. }
  split; [exact NO|]. intros S C D EN. unfold Tri_DistanceCapsule. pose proof (C47_segment t (cap_l c) P S) as H. destruct (Tri_ClosestPointSeg t (cap_l c)) as [x y]. destruct H as ((H1 & H1') & H2 & H3). rewrite Max_R, Distance_R.
  apply (distance_fat (in_triangle t) (on_segment (cap_l c)) (dist x y) (cap_r c)); [|exact C]. destruct (classic (exists x, in_triangle t x /\ on_segment (cap_l c) x)) as [E|NE].
  - destruct (H2 E (D E)) as [-> I]. replace (dist y y) with 0 by (symmetry; now apply dist_zero). split; [exists y, y; split; [exact I|]; split; [exact H1|now apply dist_zero]|]. intros a b _ _. apply norm_pos.
  - apply pair_distance, H3; [intros q Q1 Q2; apply NE; now exists q|]. right. intros q Q1 Q2. apply NE. exists q. split; [now apply EN|exact Q2].
Qed.

(** [ClosestPoint(Triangle)]. *)
Definition better (best cand : pt * pt * R) : pt * pt * R := if Rltb (snd cand) (snd best) then cand else best.
Lemma fold_better l b : In (fold_left better l b) (b :: l) /\ forall c, In c (b :: l) -> snd (fold_left better l b) <= snd c.
Proof.
  revert b. induction l as [|a l IH]; intros b; cbn [fold_left].
  - split; [now left|]. intros c [<-|[]]. lra.
  - destruct (IH (better b a)) as [I M]. unfold better in *. destruct (Rltb_spec (snd a) (snd b)) as [L|L].
    + split; [destruct I as [<-|I]; [right; now left|right; now right]|]. intros c [<-|[<-|C]]; [|apply M; now left|apply M; now right]. pose proof (M a (or_introl eq_refl)). lra.
    + split; [destruct I as [<-|I]; [now left|right; now right]|]. intros c [<-|[<-|C]]; [apply M; now left| |apply M; now right]. pose proof (M b (or_introl eq_refl)). lra.
Qed.
Lemma vertex_in t v : vertex_of t v -> in_triangle t v.
Proof. destruct (tri_corners t) as (A & B & C). intros [ -> |[ -> | -> ]]; assumption. Qed.
Lemma edge_ends t e : edge_of t e -> vertex_of t (seg_a e) /\ vertex_of t (seg_b e).
Proof. unfold vertex_of. intros [ -> |[ -> | -> ]]; cbn; tauto. Qed.
Lemma on_flip a b p : on_segment (Seg a b) p -> on_segment (Seg b a) p.
Proof. intros (k & K & ->). exists (1 - k). split; [lra|]. apply vec_ext; gunf; cbn; ring. Qed.
(** The list of edges in the model has the third edge in the other direction. *)
Definition medges (t : triangle R) : list (segment R) := [Seg (tri_a t) (tri_b t); Seg (tri_a t) (tri_c t); Seg (tri_b t) (tri_c t)].
Lemma medges_of t e : edge_of t e -> exists e', In e' (medges t) /\ forall p, on_segment e p -> on_segment e' p.
Proof.
  unfold medges. intros [ -> |[ -> | -> ]].
  - exists (Seg (tri_a t) (tri_b t)). split; [cbn; tauto|easy].
  - exists (Seg (tri_b t) (tri_c t)). split; [cbn; tauto|easy].
  - exists (Seg (tri_a t) (tri_c t)). split; [cbn; tauto|]. intros p. apply on_flip.
Qed.
Lemma medges_in t e : proper_tri t -> In e (medges t) -> proper_seg e /\ forall p, on_segment e p -> in_triangle t p.
Proof.
  intros P H. destruct H as [<-|[<-|[<-|[]]]].
  - split; [apply (edge_proper t _ P); now left|]. intros p. apply (edge_in t). now left.
  - split; [intros Q; apply (edge_proper t (Seg (tri_c t) (tri_a t)) P); [now right; right|now symmetry]|]. intros p H. apply on_flip in H. revert H. apply (edge_in t). now right; right.
  - split; [apply (edge_proper t _ P); now right; left|]. intros p. apply (edge_in t). now right; left.
Qed.
(** Triangles without a common point that are reported not to intersect: the nearest pair is returned. *)
Theorem C47_triangle (t t' : triangle R) : proper_tri t -> proper_tri t' -> (forall p, in_triangle t p -> in_triangle t' p -> False) -> fst (Tri_IntersectsTri t t') = false ->
  exists p q, Tri_ClosestPointTri t t' = Some (p, q) /\ nearest_pair (in_triangle t) (in_triangle t') p q.
Proof.
  intros P P' DIS NI. unfold Tri_ClosestPointTri. destruct (Tri_IntersectsTri t t') as [b o]. cbn [fst] in NI. subst b.
  set (fromOther := fun q : pt => (Tri_ClosestPoint t q, q, DistanceSq (Tri_ClosestPoint t q) q)).
  set (fromThis := fun q : pt => (q, Tri_ClosestPoint t' q, DistanceSq (Tri_ClosestPoint t' q) q)).
  set (fromEdges := fun e1 e2 : segment R => let '(dd, d, d2) := Seg_DistanceSeg e1 e2 in (Seg_GetPoint e1 d, Seg_GetPoint e2 d2, dd * dd)).
  change (exists p q, Some (fst (fold_left better (map fromOther [tri_b t'; tri_c t'] ++ map fromThis [tri_a t; tri_b t; tri_c t] ++ flat_map (fun e1 => map (fromEdges e1) (medges t')) (medges t)) (fromOther (tri_a t')))) = Some (p, q) /\
    nearest_pair (in_triangle t) (in_triangle t') p q).
  set (cands := map fromOther [tri_b t'; tri_c t'] ++ map fromThis [tri_a t; tri_b t; tri_c t] ++ flat_map (fun e1 => map (fromEdges e1) (medges t')) (medges t)).
  destruct (fold_better cands (fromOther (tri_a t'))) as [I M]. set (best := fold_left better cands (fromOther (tri_a t'))) in *. clearbody best.
  assert (GE : forall e1 e2, In e1 (medges t) -> In e2 (medges t') -> let '(p, q, D) := fromEdges e1 e2 in in_triangle t p /\ in_triangle t' q /\ D = sqd p q /\ nearest_pair (on_segment e1) (on_segment e2) p q).
  { intros e1 e2 I1 I2. destruct (medges_in t e1 P I1) as [PS1 IN1]. destruct (medges_in t' e2 P' I2) as [PS2 IN2]. pose proof (C43_segment_segment e1 e2 PS1 PS2) as H. unfold fromEdges, Seg_DistanceSeg.
    destruct (Seg_ClosestPointSeg e1 e2) as [[c d] d2]. destruct H as (D1 & D2 & -> & N). rewrite (Seg_GetPoint_R e1), (Seg_GetPoint_R e2), Distance_R. fold (sdir e1) (sdir e2) in N. pose proof N as (N1 & N2 & _). split; [now apply IN1|]. split; [now apply IN2|]. split; [now rewrite sqd_dist|exact N]. }
  assert (ALL : forall c, In c (fromOther (tri_a t') :: cands) -> in_triangle t (fst (fst c)) /\ in_triangle t' (snd (fst c)) /\ snd c = sqd (fst (fst c)) (snd (fst c))).
  { intros c C.
    assert (FO : forall v, vertex_of t' v -> in_triangle t (fst (fst (fromOther v))) /\ in_triangle t' (snd (fst (fromOther v))) /\ snd (fromOther v) = sqd (fst (fst (fromOther v))) (snd (fst (fromOther v)))).
    { intros v V. unfold fromOther. cbn [fst snd]. split; [apply (C47_point t v P)|]. split; [now apply vertex_in|apply DistanceSq_R]. }
    assert (FT : forall v, vertex_of t v -> in_triangle t (fst (fst (fromThis v))) /\ in_triangle t' (snd (fst (fromThis v))) /\ snd (fromThis v) = sqd (fst (fst (fromThis v))) (snd (fst (fromThis v)))).
    { intros v V. unfold fromThis. cbn [fst snd]. split; [now apply vertex_in|]. split; [apply (C47_point t' v P')|rewrite (DistanceSq_R (Tri_ClosestPoint t' v)); apply sqd_sym]. }
    destruct C as [<-|C]; [apply FO; now left|]. unfold cands in C. rewrite !in_app_iff in C. destruct C as [C|[C|C]].
    - apply in_map_iff in C. destruct C as (v & <- & [<-|[<-|[]]]); apply FO; unfold vertex_of; tauto.
    - apply in_map_iff in C. destruct C as (v & <- & [<-|[<-|[<-|[]]]]); apply FT; unfold vertex_of; tauto.
    - apply in_flat_map in C. destruct C as (e1 & I1 & C). apply in_map_iff in C. destruct C as (e2 & <- & I2). pose proof (GE e1 e2 I1 I2) as G. destruct (fromEdges e1 e2) as [[p q] D]. cbn [fst snd]. tauto. }
  destruct (ALL best I) as (B1 & B2 & B3). destruct best as [[p q] D]. cbn [fst snd] in *. exists p, q. split; [reflexivity|]. split; [exact B1|]. split; [exact B2|]. intros x y X Y.
  assert (LE : forall c, In c (fromOther (tri_a t') :: cands) -> dist p q <= dist (fst (fst c)) (snd (fst c))).
  { intros c C. specialize (M c C). destruct (ALL c C) as (_ & _ & E). rewrite B3, E in M. now apply sqd_le_dist. }
  assert (FO : forall v x, vertex_of t' v -> in_triangle t x -> dist p q <= dist x v).
  { intros v x0 V IX. eapply Rle_trans; [apply (LE (fromOther v))|unfold fromOther; cbn [fst snd]; now apply (C47_point t v P)].
    destruct V as [ -> |[ -> | -> ]]; [now left|right; unfold cands; rewrite !in_app_iff; left; cbn; tauto|right; unfold cands; rewrite !in_app_iff; left; cbn; tauto]. }
  assert (FT : forall v y, vertex_of t v -> in_triangle t' y -> dist p q <= dist v y).
  { intros v y0 V IY. eapply Rle_trans; [apply (LE (fromThis v))|unfold fromThis; cbn [fst snd]; rewrite (dist_sym v), (dist_sym v); now apply (C47_point t' v P')].
    right. unfold cands. rewrite !in_app_iff. right; left. destruct V as [ -> |[ -> | -> ]]; cbn; tauto. }
  assert (FE : forall e1 e2 x y, edge_of t e1 -> edge_of t' e2 -> on_segment e1 x -> on_segment e2 y -> dist p q <= dist x y).
  { intros e1 e2 x0 y0 E1 E2 O1 O2. destruct (medges_of t e1 E1) as (f1 & I1 & W1). destruct (medges_of t' e2 E2) as (f2 & I2 & W2). pose proof (GE f1 f2 I1 I2) as G. 
    assert (C : In (fromEdges f1 f2) (fromOther (tri_a t') :: cands)) by (right; unfold cands; rewrite !in_app_iff; right; right; apply in_flat_map; exists f1; split; [exact I1|]; apply in_map_iff; now exists f2).
    apply LE in C. destruct (fromEdges f1 f2) as [[p' q'] D']. cbn [fst snd] in C. destruct G as (_ & _ & _ & _ & _ & N). eapply Rle_trans; [exact C|]. apply N; [now apply W1|now apply W2]. }
  destruct (tri_tri_reduce t t' x y P P' DIS X Y) as (x1 & y1 & L1 & [(e & E & O1 & O2)|(e & E & O1 & O2)]).
  - destruct (tri_seg_reduce t' e y1 x1 P') as (y2 & x2 & L2 & R2); [| |exact O1|].
    + intros z Z1 Z2. apply (DIS z); [exact (edge_in t e z E Z2)|exact Z1].
    + exact O2.
    + rewrite (dist_sym y1), (dist_sym y2) in L2. enough (dist p q <= dist x2 y2) by lra. destruct R2 as [(e2 & E2 & J1 & J2)|(J1 & J2)]; [now apply (FE e e2)|]. apply FT; [|exact J1]. destruct (edge_ends t e E) as [K1 K2]. destruct J2 as [ -> | -> ]; assumption.
  - destruct (tri_seg_reduce t e x1 y1 P) as (x2 & y2 & L2 & R2); [| |exact O1|].
    + intros z Z1 Z2. apply (DIS z); [exact Z1|exact (edge_in t' e z E Z2)].
    + exact O2.
    + enough (dist p q <= dist x2 y2) by lra. destruct R2 as [(e2 & E2 & J1 & J2)|(J1 & J2)]; [now apply (FE e2 e)|]. apply FO; [|exact J1]. destruct (edge_ends t' e E) as [K1 K2]. destruct J2 as [ -> | -> ]; assumption.
Qed.
Print Assumptions C47_point.
Print Assumptions C47_outline.
Print Assumptions C47_segment.
Print Assumptions C47_line.
Print Assumptions C47_small_refuted.
Print Assumptions C47_distances.
Print Assumptions C47_triangle.
(** The hypotheses of the theorems above are met by an ordinary triangle and a segment that misses it. *)
Example C47_segment_witness : let t := Tri (V3 0 0 0) (V3 4 0 0) (V3 0 4 0) : triangle R in let s := Seg (V3 0 0 1) (V3 1 0 2) in
  proper_tri t /\ proper_seg s /\ (forall c, in_triangle t c -> on_segment s c -> False).
Proof.
  cbv zeta. split; [|split].
  - intros u v E. pose proof (f_equal vx E) as E1. pose proof (f_equal vy E) as E2. revert E1 E2. gunf. cbn. lra.
  - unfold proper_seg. intros E. injection E. lra.
  - intros c (u & v & w & _ & _ & _ & _ & ->) (x & Hx & E). apply (f_equal vz) in E. revert E. unfold along. gunf. cbn. nra.
Qed.
