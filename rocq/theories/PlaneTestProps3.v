(** C89: the collision distance, point and normal of two polygons. *)
From Coq Require Import Reals Psatz List Bool Classical.
From Verif Require Import Num NumR ScalarModel ScalarProofs Vec2Model Vec2Spec Vec2Props HullModel HullSpec HullProofs HullProps2 PlaneTestModel PlaneTestSpec PlaneTestProofs PlaneTestProps PlaneTestProps2.
Import ListNotations.
Open Scope R_scope.
Ltac Zify.zify_post_hook ::= idtac.

(** The distance of w outside the edge from p to q, and the edge's left normal. *)
Definition sep (p q w : p2) : R := - turn p q w / dst q p.
Definition side (p q : p2) : p2 := sc (/ dst q p) (perp (mi q p)).
Lemma sep_side p q w : dst q p <> 0 -> sep p q w = - dt (side p q) (mi w p).
Proof. intros N. unfold sep, side. set (l := dst q p) in *. clearbody l. unfold perp. punf. field. exact N. Qed.
Lemma side_unit p q : dst q p <> 0 -> dt (side p q) (side p q) = 1.
Proof.
  intros N. assert (Q : dt (perp (mi q p)) (perp (mi q p)) = dst q p * dst q p) by (unfold dst; rewrite nrm_sq; unfold perp; punf; ring). unfold side. set (l := dst q p) in *. set (e := perp (mi q p)) in *. clearbody l e.
  transitivity (dt e e * (/ l * / l)); [punf; ring|]. rewrite Q. field. exact N.
Qed.
Lemma dt_cauchy a b : dt a a = 1 -> Rabs (dt a b) <= nrm b.
Proof.
  intros U. unfold nrm. rewrite <- sqrt_Rsqr_abs. apply sqrt_le_1; [apply Rle_0_sqr|apply dt_pos|]. unfold Rsqr. assert (dt a a * dt b b - dt a b * dt a b = (x2 a * y2 b - y2 a * x2 b) * (x2 a * y2 b - y2 a * x2 b)) by (unfold dt; ring). pose proof (Rle_0_sqr (x2 a * y2 b - y2 a * x2 b)) as K. unfold Rsqr in K. rewrite U in H. lra.
Qed.
Lemma norm_edge p q w : 1 / 1000 < dst q p -> @PerpDot2 R Num_R w (@Normalized2 R Num_R (mi q p)) - @PerpDot2 R Num_R q (@Normalized2 R Num_R (mi q p)) = sep p q w /\ @Perp2 R Num_R (@Normalized2 R Num_R (mi q p)) = side p q.
Proof.
  intros H. destruct (C70_normalize (mi q p)) as (N & _). destruct (N H) as (E & _). unfold Normalized2. rewrite E. cbn [fst]. fold (dst q p). unfold sep, side. set (l := dst q p) in *. clearbody l. split.
  - unfold PerpDot2. punf. cbn. field. lra.
  - unfold perp, Perp2. punf. cbn. apply v2_ext; cbn; ring.
Qed.
Definition pickMin (e : p2) (best : R * p2) (q : p2) : R * p2 := if Rltb (@PerpDot2 R Num_R q e) (fst best) then (@PerpDot2 R Num_R q e, q) else best.
Lemma min_arg (e : p2) : forall bs (best : R * p2), fst best = @PerpDot2 R Num_R (snd best) e -> let r := fold_left (pickMin e) bs best in
  (snd r = snd best \/ In (snd r) bs) /\ fst r = @PerpDot2 R Num_R (snd r) e /\ fst r <= fst best /\ forall w, In w bs -> fst r <= @PerpDot2 R Num_R w e.
Proof.
  induction bs as [|q bs IH]; intros best E; cbn [fold_left]; cbv zeta; [split; [now left|]; split; [exact E|]; split; [apply Rle_refl|intros w []]|].
  assert (PK : pickMin e best q = if Rltb (@PerpDot2 R Num_R q e) (fst best) then (@PerpDot2 R Num_R q e, q) else best) by reflexivity. rewrite PK. destruct (Rltb_spec (@PerpDot2 R Num_R q e) (fst best)) as [L|L].
  - destruct (IH (@PerpDot2 R Num_R q e, q) eq_refl) as (I1 & I2 & I3 & I4). cbn [fst snd] in *. split; [right; destruct I1 as [I1|I1]; [left; now symmetry|now right]|]. split; [exact I2|]. split; [apply Rle_trans with (@PerpDot2 R Num_R q e); [exact I3|apply Rlt_le, L]|]. intros w [<-|W]; [exact I3|now apply I4].
  - destruct (IH best E) as (I1 & I2 & I3 & I4). split; [destruct I1 as [I1|I1]; [now left|right; now right]|]. split; [exact I2|]. split; [exact I3|]. intros w [<-|W]; [apply Rle_trans with (fst best); [exact I3|apply Rnot_lt_le; first [exact L|apply Rle_not_lt, L]]|now apply I4].
Qed.
Definition entry (flip : bool) (edges : list (p2 * p2)) (b : list p2) (c : R * p2 * p2) : Prop :=
  exists p q w, In (p, q) edges /\ In w b /\ c = (sep p q w, w, if flip then neg (side p q) else side p q) /\ forall w', In w' b -> sep p q w <= sep p q w'.
Definition level (c : R * p2 * p2) : R := fst (fst c).
Lemma entry_more flip e edges b c : entry flip edges b c -> entry flip (e :: edges) b c.
Proof. intros (p & q & w & I & H). exists p, q, w. split; [now right|exact H]. Qed.
Lemma contact_R flip b0 bs : forall a prev best, (forall p q, In (p, q) (path prev a) -> 1 / 1000 < dst q p) ->
  match @contactEdges R Num_R flip prev a b0 bs best with
  | inl d => exists p q, In (p, q) (path prev a) /\ 0 < d /\ forall w, In w (b0 :: bs) -> d <= sep p q w
  | inr None => a = [] /\ best = None
  | inr (Some c) => (best = Some c \/ entry flip (path prev a) (b0 :: bs) c) /\ (forall m, best = Some m -> level m <= level c) /\
      (forall p q, In (p, q) (path prev a) -> exists w, In w (b0 :: bs) /\ sep p q w <= 0 /\ sep p q w <= level c) /\ ((forall m, best = Some m -> level m <= 0) -> level c <= 0)
  end.
Proof.
  induction a as [|q a IH]; intros prev best LEN; cbn [contactEdges path].
  - destruct best as [m|]; [|now split]. split; [now left|]. split; [intros m' E; injection E as <-; lra|]. split; [intros p q []|]. intros H. now apply H.
  - cbv zeta. change (@sub2 R Num_R q prev) with (mi q prev). assert (LQ : 1 / 1000 < dst q prev) by (apply LEN; now left). set (e := @Normalized2 R Num_R (mi q prev)).
    unfold minPerpArg. match goal with |- context [fold_left ?f bs ?x] => change (fold_left f bs x) with (fold_left (pickMin e) bs (@PerpDot2 R Num_R b0 e, b0)) end.
    pose proof (min_arg e bs (@PerpDot2 R Num_R b0 e, b0) eq_refl) as MA. cbv zeta in MA. destruct (fold_left (pickMin e) bs (@PerpDot2 R Num_R b0 e, b0)) as (minOther & point). cbn [fst snd] in MA. destruct MA as (M1 & M2 & M3 & M4).
    assert (NE : forall w, @PerpDot2 R Num_R w e - @PerpDot2 R Num_R q e = sep prev q w) by (intros w; apply norm_edge, LQ). assert (NP : @Perp2 R Num_R e = side prev q) by apply (norm_edge prev q q LQ).
    change (@nsub R Num_R minOther (@PerpDot2 R Num_R q e)) with (minOther - @PerpDot2 R Num_R q e). set (d := minOther - @PerpDot2 R Num_R q e).
    assert (DS : d = sep prev q point) by (unfold d; rewrite M2; apply NE). assert (DM : forall w, In w (b0 :: bs) -> d <= sep prev q w) by (intros w W; rewrite <- NE; unfold d; destruct W as [<-|W]; [lra|pose proof (M4 w W); lra]).
    assert (PI : In point (b0 :: bs)) by (destruct M1 as [M1|M1]; [left; now symmetry|now right]).
    change (@nltb R Num_R) with Rltb. change (@n0 R Num_R) with 0. destruct (Rltb_spec 0 d) as [L|L]; [exists prev, q; split; [now left|]; auto|].
    rewrite NP. change (@neg2 R Num_R) with neg. set (c0 := (d, point, if flip then neg (side prev q) else side prev q)).
    assert (EN : entry flip ((prev, q) :: path q a) (b0 :: bs) c0) by (exists prev, q, point; split; [now left|]; split; [exact PI|]; split; [unfold c0; now rewrite DS|]; intros w' W'; rewrite <- DS; now apply DM).
    assert (STEP : forall best', (best' = Some c0 \/ best' = best) -> (exists m, best' = Some m /\ d <= level m) -> (forall m, best = Some m -> exists m', best' = Some m' /\ level m <= level m') ->
       match @contactEdges R Num_R flip q a b0 bs best' with
       | inl d => exists p q', In (p, q') ((prev, q) :: path q a) /\ 0 < d /\ forall w, In w (b0 :: bs) -> d <= sep p q' w
       | inr None => q :: a = [] /\ best = None
       | inr (Some c) => (best = Some c \/ entry flip ((prev, q) :: path q a) (b0 :: bs) c) /\ (forall m, best = Some m -> level m <= level c) /\
           (forall p q', In (p, q') ((prev, q) :: path q a) -> exists w, In w (b0 :: bs) /\ sep p q' w <= 0 /\ sep p q' w <= level c) /\ ((forall m, best = Some m -> level m <= 0) -> level c <= 0)
       end).
    { intros best' OR (m0 & EM & DM0) UP. specialize (IH q best' (fun p q' H => LEN p q' (or_intror H))). destruct (contactEdges flip q a b0 bs best') as [d'|[c|]].
      - destruct IH as (p & q' & I & H). exists p, q'. split; [now right|exact H].
      - destruct IH as (I1 & I2 & I3 & I4). pose proof (I2 m0 EM) as LM. split; [destruct I1 as [I1|I1]; [destruct OR as [OR|OR]; rewrite OR in I1; [injection I1 as <-; right; exact EN|left; exact I1]|right; apply entry_more, I1]|].
        split; [intros m E; destruct (UP m E) as (m' & E' & LE); specialize (I2 m' E'); lra|]. split.
        + intros p q' [E|E]; [injection E as <- <-; exists point; split; [exact PI|]; rewrite <- DS; lra|now apply I3].
        + intros HB. apply I4. intros m E. destruct OR as [OR|OR]; rewrite OR in E; [injection E as <-; unfold c0, level; cbn; lra|now apply HB].
      - destruct IH as (_ & I2). congruence. }
    destruct best as [((m & pt) & nn)|].
    + destruct (Rltb_spec m d) as [K|K]; apply STEP.
      * now left. * exists c0. split; [reflexivity|]. unfold c0, level. cbn. lra. * intros m' E. injection E as <-. exists c0. split; [reflexivity|]. unfold c0, level. cbn. lra.
      * now right. * exists (m, pt, nn). split; [reflexivity|]. unfold level. cbn. lra. * intros m' E. injection E as <-. exists (m, pt, nn). split; [reflexivity|]. lra.
    + apply STEP; [now left|exists c0; split; [reflexivity|]; unfold c0, level; cbn; lra|discriminate].
Qed.

Section Contact.
  Context (a b : list p2) (CA : ccw_polygon a) (LA : (3 <= length a)%nat) (CB : ccw_polygon b) (LB : (3 <= length b)%nat) (EA : edges_longer (1 / 1000) a) (EB : edges_longer (1 / 1000) b).
  Lemma far_apart c d (p q x y : p2) (r : R) : ccw_polygon c -> In (p, q) (polygon_edges c) -> 1 / 1000 < dst q p -> (forall w, In w d -> r <= sep p q w) -> in_hull2 c x -> in_hull2 d y -> r <= dst x y.
  Proof.
    intros CC E L S Hx Hy. pose proof (ccw_left c p q x CC E Hx) as TX. assert (N : dst q p <> 0) by lra.
    assert (SY : r <= sep p q y).
    { apply Hy; [|exact S]. intros u v t T Hu Hv. rewrite sep_side in * by exact N. replace (dt (side p q) (mi (pl u (sc t (mi v u))) p)) with ((1 - t) * dt (side p q) (mi u p) + t * dt (side p q) (mi v p)) by (set (n := side p q); clearbody n; punf; ring). nra. }
    assert (SX : sep p q x <= 0) by (unfold sep, Rdiv; assert (0 < / dst q p) by (apply Rinv_0_lt_compat; lra); nra).
    rewrite sep_side in SX, SY by exact N. pose proof (dt_cauchy (side p q) (mi x y) (side_unit p q N)) as K. unfold dst at 1. replace (dt (side p q) (mi x y)) with (dt (side p q) (mi x p) - dt (side p q) (mi y p)) in K by (set (n := side p q); clearbody n; punf; ring).
    pose proof (Rle_abs (dt (side p q) (mi x p) - dt (side p q) (mi y p))). lra.
  Qed.
  Lemma contact_cases : match SATCollide2D_CollisionPoint a b with
    | Some (inl d) => 0 < d /\ forall x y, in_hull2 a x -> in_hull2 b y -> d <= dst x y
    | Some (inr (Some c)) => level c <= 0 /\ (entry false (polygon_edges a) b c \/ entry true (polygon_edges b) a c) /\
        (forall p q, In (p, q) (polygon_edges a) -> exists w, In w b /\ sep p q w <= level c) /\ (forall p q, In (p, q) (polygon_edges b) -> exists w, In w a /\ sep p q w <= level c)
    | _ => False
    end.
  Proof.
    pose proof (far_apart a b) as FA. pose proof (far_apart b a) as FB. unfold edges_longer in EA, EB. destruct a as [|a0 a']; [cbn in LA; inversion LA|]. destruct b as [|b0 b']; [cbn in LB; inversion LB|].
    unfold SATCollide2D_CollisionPoint. change (v2 R) with p2. pose proof (contact_R false b0 b' (a0 :: a') (last (a0 :: a') a0) None EA) as C1.
    match type of C1 with match ?K with inl _ => _ | inr _ => _ end => match goal with |- context [contactEdges false ?x ?y ?z ?w ?n] => change (contactEdges false x y z w n) with K end; destruct K as [d|best] end.
    - destruct C1 as (p & q & I & P & H). split; [exact P|]. intros x y Hx Hy. apply (FA p q x y d); auto.
    - pose proof (contact_R true a0 a' (b0 :: b') (last (b0 :: b') b0) best EB) as C2. destruct best as [m|]; [|destruct C1 as (C1 & _); discriminate C1].
      destruct C1 as (I1 & _ & I3 & I4). match type of C2 with match ?K with inl _ => _ | inr _ => _ end => match goal with |- context [contactEdges true ?x ?y ?z ?w ?n] => change (contactEdges true x y z w n) with K end; destruct K as [d|[c|]] end.
      + destruct C2 as (p & q & I & P & H). split; [exact P|]. intros x y Hx Hy. rewrite dst_sym. apply (FB p q y x d); auto.
      + destruct C2 as (J1 & J2 & J3 & J4). specialize (J2 m eq_refl). split; [apply J4; intros m' E; injection E as <-; apply I4; discriminate|]. split.
        * destruct J1 as [J1|J1]; [|now right]. injection J1 as <-. destruct I1 as [I1|I1]; [discriminate I1|now left].
        * split; intros p q E; [destruct (I3 p q E) as (w & W & _ & S); exists w; split; [exact W|lra]|destruct (J3 p q E) as (w & W & _ & S); exists w; auto].
      + destruct C2 as (_ & C2). discriminate C2.
  Qed.
End Contact.
(** A positive result is a lower bound on the distance between the polygons, which then are disjoint. *)
Theorem C89_distance (a b : list p2) (d : R) : ccw_polygon a -> (3 <= length a)%nat -> ccw_polygon b -> (3 <= length b)%nat -> edges_longer (1 / 1000) a -> edges_longer (1 / 1000) b ->
  SATCollide2D_CollisionPoint a b = Some (inl d) -> 0 < d /\ (forall x y, in_hull2 a x -> in_hull2 b y -> d <= dst x y) /\ ~ meet2 (in_hull2 a) (in_hull2 b).
Proof.
  intros CA LA CB LB EA EB E. pose proof (contact_cases a b CA LA CB LB EA EB) as H. rewrite E in H. destruct H as (P & H). split; [exact P|]. split; [exact H|]. intros (x & X1 & X2). specialize (H x x X1 X2). rewrite (proj2 (dst_zero x x) eq_refl) in H. lra.
Qed.
(** Otherwise the result is the negated penetration depth: the polygons meet and keep meeting when the first is moved by any vector no longer than the depth, while moving it
    along the returned unit normal by more than the depth parts them; the returned point is a vertex, the deepest one along the normal. *)
Theorem C89_depth (a b : list p2) (c : contact) : ccw_polygon a -> (3 <= length a)%nat -> ccw_polygon b -> (3 <= length b)%nat -> edges_longer (1 / 1000) a -> edges_longer (1 / 1000) b ->
  SATCollide2D_CollisionPoint a b = Some (inr c) -> exists r point normal, c = Some (r, point, normal) /\ r <= 0 /\ nrm normal = 1 /\ meet2 (in_hull2 a) (in_hull2 b) /\
    (forall v, nrm v <= - r -> meet2 (shifted v (in_hull2 a)) (in_hull2 b)) /\ (forall k, - r < k -> ~ meet2 (shifted (sc k normal) (in_hull2 a)) (in_hull2 b)) /\
    (In point b /\ (forall w, In w b -> dt normal w <= dt normal point) \/ In point a /\ (forall w, In w a -> dt normal point <= dt normal w)).
Proof.
  intros CA LA CB LB EA EB E. pose proof (contact_cases a b CA LA CB LB EA EB) as H. rewrite E in H. destruct c as [((r & point) & normal)|]; [|contradiction]. unfold level in H. cbn [fst] in H. destruct H as (R0 & EN & SA & SB).
  exists r, point, normal. split; [reflexivity|]. split; [exact R0|].
  assert (LEN : forall p q, In (p, q) (polygon_edges a) \/ In (p, q) (polygon_edges b) -> 0 < dst q p) by (intros p q [I|I]; [apply EA in I|apply EB in I]; lra).
  assert (TS : forall p q w, 0 < dst q p -> turn p q w = - sep p q w * dst q p) by (intros p q w L; unfold sep; field; lra).
  assert (SHIFT : forall v, nrm v <= - r -> meet2 (shifted v (in_hull2 a)) (in_hull2 b)).
  { intros v V. apply (sat_shift a b v CA LA CB LB).
    - intros p q I. destruct (SA p q I) as (w & W & S). exists w. split; [exact W|]. pose proof (LEN p q (or_introl I)) as L. rewrite TS by exact L. apply Rmult_le_pos; [|lra]. pose proof (dt_cauchy (side p q) v (side_unit p q ltac:(lra))) as K. rewrite sep_side in * by lra.
      replace (dt (side p q) (mi (mi w v) p)) with (dt (side p q) (mi w p) - dt (side p q) v) by (set (n := side p q); clearbody n; punf; ring). pose proof (Rle_abs (dt (side p q) v)). lra.
    - intros p q I. destruct (SB p q I) as (w & W & S). exists w. split; [exact W|]. pose proof (LEN p q (or_intror I)) as L. rewrite TS by exact L. apply Rmult_le_pos; [|lra]. pose proof (dt_cauchy (side p q) v (side_unit p q ltac:(lra))) as K. rewrite sep_side in * by lra.
      replace (dt (side p q) (mi (pl w v) p)) with (dt (side p q) (mi w p) + dt (side p q) v) by (set (n := side p q); clearbody n; punf; ring). pose proof (Rle_abs (- dt (side p q) v)) as K'. rewrite Rabs_Ropp in K'. lra. }
  assert (UN : nrm normal = 1).
  { assert (U : dt normal normal = 1); [|unfold nrm; rewrite U; apply sqrt_1]. destruct EN as [EN|EN]; destruct EN as (p & q & w & I & _ & EQ & _); injection EQ as _ _ ->.
    - apply side_unit. apply Rgt_not_eq, LEN. now left.
    - rewrite dt_neg, dt_comm, dt_neg, Ropp_involutive. apply side_unit. apply Rgt_not_eq, LEN. now right. }
  split; [exact UN|]. split.
  { destruct (SHIFT o2) as (x & X1 & X2); [unfold nrm; replace (dt o2 o2) with 0 by (punf; ring); rewrite sqrt_0; lra|]. exists x. split; [|exact X2]. unfold shifted in X1. replace (mi x o2) with x in X1 by (punf; apply v2_ext; cbn; ring). exact X1. }
  split; [exact SHIFT|]. destruct EN as [EN|EN]; destruct EN as (p & q & w & I & W & EQ & MINI); injection EQ as -> -> ->; clear E UN SHIFT.
  - pose proof (LEN p q (or_introl I)) as L. assert (N : dst q p <> 0) by lra. pose proof (side_unit p q N) as U. assert (MX : forall w', In w' b -> dt (side p q) w' <= dt (side p q) w).
    { intros w' W'. specialize (MINI w' W'). rewrite !sep_side, !dt_mi_r in MINI by exact N. lra. }
    split; [|left; split; [exact W|exact MX]]. intros k K (x & X1 & X2). unfold shifted in X1. pose proof (ccw_left a p q _ CA I X1) as T.
    assert (B : dt (side p q) x <= dt (side p q) w) by (apply X2; [apply half_convex|exact MX]).
    assert (T' : 0 <= dt (side p q) (mi (mi x (sc k (side p q))) p)). { pose proof (sep_side p q (mi x (sc k (side p q))) N) as SS. assert (sep p q (mi x (sc k (side p q))) <= 0) by (unfold sep, Rdiv; assert (0 < / dst q p) by (apply Rinv_0_lt_compat; lra); nra). lra. }
    rewrite sep_side, dt_mi_r in K by exact N. replace (dt (side p q) (mi (mi x (sc k (side p q))) p)) with (dt (side p q) x - k * dt (side p q) (side p q) - dt (side p q) p) in T' by (set (n := side p q); clearbody n; punf; ring). rewrite U in T'. lra.
  - pose proof (LEN p q (or_intror I)) as L. assert (N : dst q p <> 0) by lra. pose proof (side_unit p q N) as U. assert (MX : forall w', In w' a -> dt (side p q) w' <= dt (side p q) w).
    { intros w' W'. specialize (MINI w' W'). rewrite !sep_side, !dt_mi_r in MINI by exact N. lra. }
    assert (NG : forall z, dt (neg (side p q)) z = - dt (side p q) z) by (intros z; rewrite dt_comm, dt_neg, dt_comm; reflexivity).
    split; [|right; split; [exact W|]; intros w' W'; rewrite !NG; specialize (MX w' W'); lra]. intros k K (x & X1 & X2). unfold shifted in X1. pose proof (ccw_left b p q _ CB I X2) as T.
    assert (B : dt (side p q) (mi x (sc k (neg (side p q)))) <= dt (side p q) w) by (apply X1; [apply half_convex|exact MX]).
    assert (T' : 0 <= dt (side p q) (mi x p)). { pose proof (sep_side p q x N) as SS. assert (sep p q x <= 0) by (unfold sep, Rdiv; assert (0 < / dst q p) by (apply Rinv_0_lt_compat; lra); nra). lra. }
    rewrite sep_side, dt_mi_r in K by exact N. rewrite dt_mi_r in T'. replace (dt (side p q) (mi x (sc k (neg (side p q))))) with (dt (side p q) x + k * dt (side p q) (side p q)) in B by (set (n := side p q); clearbody n; unfold neg; punf; ring). rewrite U in B. lra.
Qed.
(** One of the two cases always applies. *)
Theorem C89_result (a b : list p2) : ccw_polygon a -> (3 <= length a)%nat -> ccw_polygon b -> (3 <= length b)%nat -> edges_longer (1 / 1000) a -> edges_longer (1 / 1000) b ->
  (SATCollide2D a b = Some true <-> exists c, SATCollide2D_CollisionPoint a b = Some (inr c)) /\ (SATCollide2D a b = Some false <-> exists d, SATCollide2D_CollisionPoint a b = Some (inl d)).
Proof.
  intros CA LA CB LB EA EB. destruct (C89_collide a b CA LA CB LB) as (S1 & S2). rewrite S1, S2. pose proof (contact_cases a b CA LA CB LB EA EB) as H. destruct (SATCollide2D_CollisionPoint a b) as [[d|c]|] eqn:E; [| |contradiction].
  - destruct (C89_distance a b d CA LA CB LB EA EB E) as (_ & _ & N). split; split; try tauto; [intros (c & C); discriminate C|intros _; now exists d].
  - destruct (C89_depth a b c CA LA CB LB EA EB E) as (r & point & normal & _ & _ & _ & M & _). split; split; try tauto; [intros _; now exists c|intros (d & D); discriminate D].
Qed.
Lemma winding_from : forall (rest : list p2) (prev2 prev1 : p2), (forall a b c, In (a, b) ((prev2, prev1) :: path prev1 rest) -> In (b, c) (path prev1 rest) -> - (1 / 100) <= turn a b c) -> @ccwFrom R Num_R prev2 prev1 rest = true.
Proof.
  induction rest as [|q rest IH]; intros prev2 prev1 H; cbn [ccwFrom]; [reflexivity|]. rewrite PerpDot2D_R. change (@nltb R Num_R) with Rltb. rewrite nlit_R. change (@nneg R Num_R) with Ropp.
  rewrite (proj2 (Rltb_false _ _)); [apply IH; intros a b c I J; apply (H a b c); [now right|now right]|]. pose proof (H prev2 prev1 q (or_introl eq_refl) (or_introl eq_refl)). cbn. lra.
Qed.
Lemma path_mid (a b : p2) t : forall l x, In (a, b) (path x (l ++ a :: b :: t)).
Proof. induction l as [|y l IH]; intros x; cbn; [right; now left|right; apply IH]. Qed.
(** The winding check accepts every list without a right turn of more than 0.01 in twice the area, in particular every convex polygon. *)
Theorem C89_winding (vs : list p2) : (2 <= length vs)%nat ->
  ((forall a b c, In (a, b) (polygon_edges vs) -> In (b, c) (polygon_edges vs) -> - (1 / 100) <= turn a b c) -> HasCcwWindingOrder vs = Some true) /\ (ccw_polygon vs -> HasCcwWindingOrder vs = Some true).
Proof.
  intros L. assert (G : (forall a b c, In (a, b) (polygon_edges vs) -> In (b, c) (polygon_edges vs) -> - (1 / 100) <= turn a b c) -> HasCcwWindingOrder vs = Some true).
  { intros H. unfold HasCcwWindingOrder. change (v2 R) with p2. destruct (rev vs) as [|l1 [|l2 r]] eqn:E.
    - apply (f_equal (@length _)) in E. rewrite rev_length in E. cbn in E. rewrite E in L. inversion L.
    - apply (f_equal (@length _)) in E. rewrite rev_length in E. cbn in E. rewrite E in L. inversion L as [|m L']. inversion L'.
    - assert (EV : vs = rev r ++ [l2; l1]) by (rewrite <- (rev_involutive vs), E; cbn; now rewrite <- app_assoc). assert (EL : forall d, last vs d = l1) by (intros d; apply (last_rev vs l1 (l2 :: r) d E)).
      f_equal. assert (PE : polygon_edges vs = path l1 vs) by (unfold polygon_edges; destruct vs as [|v vs']; [now destruct (rev r)|]; now rewrite EL). rewrite PE in H.
      apply (winding_from vs l2 l1). intros a b c [I|I] J; [|now apply H]. injection I as <- <-. apply H; [|exact J]. rewrite EV. apply path_mid. }
  split; [exact G|]. intros (_ & C & _). apply G. intros a b c I J. pose proof (C a b c I J). lra.
Qed.
Ltac wind := match goal with |- context [Rltb ?x ?y] => rewrite (proj2 (Rltb_false x y)) by (unfold PerpDot2D; cbn; lra) end.
(** A five-pointed star passes the check, and then the collision test misses a common point; so does a small clockwise triangle. *)
Theorem C89_winding_refuted : exists star b : list p2, HasCcwWindingOrder star = Some true /\ HasCcwWindingOrder b = Some true /\ SATCollide2D star b = Some false /\ meet2 (in_hull2 star) (in_hull2 b).
Proof.
  set (star := [V2 0 3; V2 (-2) (-3); V2 3 1; V2 (-3) 1; V2 2 (-3)] : list p2). set (b := [V2 (-3) 1; V2 (-4) 2; V2 (-4) 1] : list p2). exists star, b.
  assert (EDGES : polygon_edges star = [(V2 2 (-3), V2 0 3); (V2 0 3, V2 (-2) (-3)); (V2 (-2) (-3), V2 3 1); (V2 3 1, V2 (-3) 1); (V2 (-3) 1, V2 2 (-3))]) by reflexivity.
  split; [|split; [|split]].
  - unfold HasCcwWindingOrder, star. cbn [rev app]. f_equal. cbn [ccwFrom]. change (@nltb R Num_R) with Rltb. rewrite nlit_R. change (@nneg R Num_R) with Ropp. repeat wind. reflexivity.
  - unfold HasCcwWindingOrder, b. cbn [rev app]. f_equal. cbn [ccwFrom]. change (@nltb R Num_R) with Rltb. rewrite nlit_R. change (@nneg R Num_R) with Ropp. repeat wind. reflexivity.
  - assert (N : SATCollide2D star b <> Some true).
    { rewrite sat_R by discriminate. intros (H & _). destruct (H (V2 0 3) (V2 (-2) (-3))) as (w & W & T); [rewrite EDGES; right; now left|]. unfold b in W. cbn in W. destruct W as [<-|[<-|[<-|[]]]]; punf; lra. }
    unfold SATCollide2D in *. unfold star, b in *. match goal with |- Some ?x = _ => destruct x end; [exfalso; now apply N|reflexivity].
  - exists (V2 (-3) 1). split; intros A _ I; apply I; cbn; tauto.
Qed.
Theorem C89_clockwise_refuted : HasCcwWindingOrder ([V2 0 0; V2 0 (1 / 20); V2 (1 / 20) 0] : list p2) = Some true /\ turn (V2 0 0) (V2 0 (1 / 20)) (V2 (1 / 20) 0) < 0.
Proof.
  split; [|punf; lra]. unfold HasCcwWindingOrder. cbn [rev app]. f_equal. cbn [ccwFrom]. change (@nltb R Num_R) with Rltb. rewrite nlit_R. change (@nneg R Num_R) with Ropp. repeat wind. reflexivity.
Qed.
(** With an edge of at most 0.001 the collision function can report polygons with a common point as 4 units apart. *)
Theorem C89_short_edge_refuted : exists a b : list p2, SATCollide2D_CollisionPoint a b = Some (inl 4) /\ SATCollide2D a b = Some true /\ meet2 (in_hull2 a) (in_hull2 b).
Proof.
  set (a := [V2 (- (4 / 10000)) 5; V2 (-5) (-5); V2 5 (-5); V2 (4 / 10000) 5] : list p2). set (b := [V2 (-1) (-1); V2 1 (-1); V2 1 1; V2 (-1) 1] : list p2). exists a, b. split; [|split].
  - unfold SATCollide2D_CollisionPoint, a, b. f_equal. change (last [V2 (- (4 / 10000)) 5; V2 (-5) (-5); V2 5 (-5); V2 (4 / 10000) 5] (V2 (- (4 / 10000)) 5)) with (V2 (4 / 10000) 5). cbn [contactEdges]. change (@sub2 R Num_R (V2 (- (4 / 10000)) 5) (V2 (4 / 10000) 5)) with (mi (V2 (- (4 / 10000)) 5) (V2 (4 / 10000) 5)). set (e := @Normalized2 R Num_R (mi (V2 (- (4 / 10000)) 5) (V2 (4 / 10000) 5))).
    assert (EE : e = V2 1 0).
    { unfold e, Normalized2. destruct (C70_normalize (mi (V2 (- (4 / 10000)) 5) (V2 (4 / 10000) 5))) as (_ & N). rewrite N; [reflexivity|]. apply (dst_sq_le (V2 (- (4 / 10000)) 5) (V2 (4 / 10000) 5)); [lra|]. punf. lra. }
    rewrite EE. clear e EE. unfold minPerpArg, PerpDot2. cbn -[Rltb]. unfold n0. cbn -[Rltb].
    repeat (match goal with |- context [Rltb ?x ?y] => first [rewrite (proj2 (Rltb_true x y)) by lra | rewrite (proj2 (Rltb_false x y)) by lra] end; cbn -[Rltb]). f_equal. lra.
  - rewrite sat_R by discriminate. unfold a, b. split; intros p q I; cbn in I; repeat (destruct I as [I|I]; [injection I as <- <-|]); try contradiction;
    first [eexists; split; [left; reflexivity|punf; lra]|eexists; split; [right; left; reflexivity|punf; lra]|eexists; split; [right; right; left; reflexivity|punf; lra]|eexists; split; [right; right; right; left; reflexivity|punf; lra]].
  - exists o2. split; intros A C I.
    + apply (in_triangle2 A (V2 (-5) (-5)) (V2 5 (-5)) (V2 (4 / 10000) 5)); try exact C; try (apply I; cbn; tauto); punf; lra.
    + apply (in_triangle2 A (V2 (-1) (-1)) (V2 1 (-1)) (V2 1 1)); try exact C; try (apply I; cbn; tauto); punf; lra.
Qed.
(** Two single points always collide. *)
Theorem C89_points_refuted (p q : p2) : SATCollide2D [p] [q] = Some true.
Proof.
  rewrite sat_R by discriminate. cbn. split; intros a b [E|[]]; injection E as <- <-; [exists q|exists p]; (split; [now left|]); rewrite turn_stay; lra.
Qed.
(** Two squares: overlapping by one unit, and one unit apart. *)
Definition square (x y : R) : list p2 := [V2 x y; V2 (x + 4) y; V2 (x + 4) (y + 4); V2 x (y + 4)].
Lemma square_ok x y : ccw_polygon (square x y) /\ edges_longer (1 / 1000) (square x y).
Proof.
  split; [split; [|split]|].
  - unfold square. repeat constructor; cbn; intros H; repeat (destruct H as [H|H]; [first [apply (f_equal x2) in H; cbn in H; lra|apply (f_equal y2) in H; cbn in H; lra]|]); exact H.
  - intros a b c I J. cbn in I, J. repeat (destruct I as [I|I]; [injection I as <- <-|]); try contradiction; repeat (destruct J as [J|J]; [injection J; intros; subst; try lra; punf; try nra|]); try contradiction.
  - intros a b v I J. cbn in I, J. repeat (destruct I as [I|I]; [injection I as <- <-|]); try contradiction; repeat (destruct J as [<-|J]; [punf; nra|]); contradiction.
  - intros a b I. cbn in I. apply Rnot_le_lt. rewrite dst_sq_le by lra. repeat (destruct I as [I|I]; [injection I as <- <-|]); try contradiction; punf; lra.
Qed.
Example C89_witness : ccw_polygon (square 0 0) /\ edges_longer (1 / 1000) (square 0 0) /\ meet2 (in_hull2 (square 0 0)) (in_hull2 (square 3 1)) /\ ~ meet2 (in_hull2 (square 0 0)) (in_hull2 (square 5 1)) /\
  (exists c, SATCollide2D_CollisionPoint (square 0 0) (square 3 1) = Some (inr c)) /\ exists d, SATCollide2D_CollisionPoint (square 0 0) (square 5 1) = Some (inl d).
Proof.
  destruct (square_ok 0 0) as (C0 & E0). destruct (square_ok 3 1) as (C1 & E1). destruct (square_ok 5 1) as (C2 & E2). assert (LEN : forall x y, (3 <= length (square x y))%nat) by (intros x y; cbn; repeat constructor).
  assert (M : meet2 (in_hull2 (square 0 0)) (in_hull2 (square 3 1))) by (exists (V2 4 4); split; intros A C I; [apply I; cbn; right; right; left; apply v2_ext; cbn; ring|apply (in_triangle2 A (V2 3 1) (V2 (3 + 4) (1 + 4)) (V2 3 (1 + 4))); try exact C; try (apply I; cbn; tauto); punf; lra]).
  assert (N : ~ meet2 (in_hull2 (square 0 0)) (in_hull2 (square 5 1))).
  { intros (x & X1 & X2). assert (A1 : dt (V2 1 0) x <= 4) by (apply X1; [apply half_convex|]; intros v V; cbn in V; repeat (destruct V as [<-|V]; [punf; lra|]); contradiction). assert (A2 : dt (V2 (-1) 0) x <= -5) by (apply X2; [apply half_convex|]; intros v V; cbn in V; repeat (destruct V as [<-|V]; [punf; lra|]); contradiction). punf. lra. }
  split; [exact C0|]. split; [exact E0|]. split; [exact M|]. split; [exact N|]. split.
  - apply (C89_result _ _ C0 (LEN 0 0) C1 (LEN 3 1) E0 E1). now apply (C89_collide _ _ C0 (LEN 0 0) C1 (LEN 3 1)).
  - apply (C89_result _ _ C0 (LEN 0 0) C2 (LEN 5 1) E0 E2). now apply (C89_collide _ _ C0 (LEN 0 0) C2 (LEN 5 1)).
Qed.
Print Assumptions C89_collide.
Print Assumptions C89_depth.
