(** C89: the separating axis test on polygons. *)
From Coq Require Import Reals Psatz List Bool Classical.
From Verif Require Import Num NumR ScalarModel ScalarProofs Vec2Model Vec2Spec Vec2Props HullModel HullSpec HullProofs HullProps2 PlaneTestModel PlaneTestSpec PlaneTestProofs PlaneTestProps.
Import ListNotations.
Open Scope R_scope.
Ltac Zify.zify_post_hook ::= idtac.

Lemma perpdot_turn (p q w : p2) : @PerpDot2 R Num_R w (mi q p) - @PerpDot2 R Num_R q (mi q p) = - turn p q w.
Proof. unfold PerpDot2. punf. cbn. ring. Qed.
Lemma min_le (e : p2) : forall bs (m : R), let r := fold_left (fun m q => @Min R Num_R m (@PerpDot2 R Num_R q e)) bs m in
  (r = m \/ exists w, In w bs /\ r = @PerpDot2 R Num_R w e) /\ r <= m /\ forall w, In w bs -> r <= @PerpDot2 R Num_R w e.
Proof.
  induction bs as [|q bs IH]; intros m; cbn [fold_left]; cbv zeta; [split; [now left|]; split; [lra|intros w []]|].
  destruct (IH (@Min R Num_R m (@PerpDot2 R Num_R q e))) as (I1 & I2 & I3). set (x := @PerpDot2 R Num_R q e) in *. set (r := fold_left _ bs _) in *. rewrite Min_R in I1, I2. pose proof (Rmin_l m x). pose proof (Rmin_r m x).
  split; [|split; [lra|intros w [<-|W]; [fold x; lra|now apply I3]]]. destruct I1 as [I1|(w & W & I1)]; [|right; exists w; split; [now right|exact I1]]. unfold Rmin in I1. destruct (Rle_dec m x); [now left|right; exists q; split; [now left|exact I1]].
Qed.
Lemma satEdges_R b0 bs : forall a prev, @satEdges R Num_R prev a b0 bs = true <-> forall p q, In (p, q) (path prev a) -> exists w, In w (b0 :: bs) /\ 0 <= turn p q w.
Proof.
  induction a as [|q a IH]; intros prev; cbn [satEdges path]; [split; [intros _ p q []|reflexivity]|]. cbv zeta. change (@sub2 R Num_R q prev) with (mi q prev). unfold minPerp.
  destruct (min_le (mi q prev) bs (@PerpDot2 R Num_R b0 (mi q prev))) as (I1 & I2 & I3). set (r := fold_left _ bs _) in *. change (@nltb R Num_R) with Rltb. destruct (Rltb_spec (@PerpDot2 R Num_R q (mi q prev)) r) as [L|L].
  - split; [discriminate|]. intros H. destruct (H prev q (or_introl eq_refl)) as (w & W & T). exfalso. pose proof (perpdot_turn prev q w). assert (r <= @PerpDot2 R Num_R w (mi q prev)) by (destruct W as [<-|W]; [exact I2|now apply I3]). lra.
  - rewrite IH. split.
    + intros H p q' [E|E]; [|now apply H]. injection E as <- <-. destruct I1 as [I1|(w & W & I1)]; [exists b0; split; [now left|]; pose proof (perpdot_turn prev q b0); lra|exists w; split; [now right|]; pose proof (perpdot_turn prev q w); lra].
    + intros H p q' E. apply H. now right.
Qed.
Lemma sat_R (a b : list p2) : a <> [] -> b <> [] -> (SATCollide2D a b = Some true <->
  (forall p q, In (p, q) (polygon_edges a) -> exists w, In w b /\ 0 <= turn p q w) /\ (forall p q, In (p, q) (polygon_edges b) -> exists w, In w a /\ 0 <= turn p q w)).
Proof.
  intros NA NB. destruct a as [|a0 a]; [contradiction|]. destruct b as [|b0 b]; [contradiction|]. unfold SATCollide2D, polygon_edges. change (v2 R) with p2.
  pose proof (satEdges_R b0 b (a0 :: a) (last (a0 :: a) a0)) as X. pose proof (satEdges_R a0 a (b0 :: b) (last (b0 :: b) b0)) as Y.
  rewrite <- X, <- Y. clear X Y. destruct (satEdges (last (a0 :: a) a0) (a0 :: a) b0 b), (satEdges (last (b0 :: b) b0) (b0 :: b) a0 a); split; intros H; try discriminate H; try (destruct H as (H & H'); discriminate); auto.
Qed.

Lemma half_turn p q : convex2 (fun x => 0 <= turn p q x).
Proof. intros a b t T Ha Hb. replace (turn p q (pl a (sc t (mi b a)))) with ((1 - t) * turn p q a + t * turn p q b) by (punf; ring). nra. Qed.
Lemma half_turn_neg p q m : convex2 (fun x => turn p q x <= m).
Proof. intros a b t T Ha Hb. replace (turn p q (pl a (sc t (mi b a)))) with ((1 - t) * turn p q a + t * turn p q b) by (punf; ring). nra. Qed.
(** Helly's theorem on the edge half-planes of two polygons. *)
Lemma sat_shift (a b : list p2) v : ccw_polygon a -> (3 <= length a)%nat -> ccw_polygon b -> (3 <= length b)%nat ->
  (forall p q, In (p, q) (polygon_edges a) -> exists w, In w b /\ 0 <= turn p q (mi w v)) -> (forall p q, In (p, q) (polygon_edges b) -> exists w, In w a /\ 0 <= turn p q (pl w v)) ->
  meet2 (shifted v (in_hull2 a)) (in_hull2 b).
Proof.
  intros CA LA CB LB HA HB. set (ha := fun (e : p2 * p2) (x : p2) => 0 <= turn (fst e) (snd e) (mi x v)). set (hb := fun (e : p2 * p2) (x : p2) => 0 <= turn (fst e) (snd e) x).
  set (L := map ha (polygon_edges a) ++ map hb (polygon_edges b)).
  assert (IL : forall X, In X L -> (exists e, In e (polygon_edges a) /\ X = ha e) \/ exists e, In e (polygon_edges b) /\ X = hb e).
  { intros X HX. apply in_app_or in HX. destruct HX as [HX|HX]; apply in_map_iff in HX; destruct HX as (e & <- & E); [left|right]; exists e; auto. }
  assert (VA : forall w e, In w a -> In e (polygon_edges a) -> ha e (pl w v)).
  { intros w (p & q) W E. unfold ha. cbn [fst snd]. replace (mi (pl w v) v) with w by (punf; apply v2_ext; cbn; ring). destruct CA as (_ & _ & CA). now apply CA. }
  assert (VB : forall w e, In w b -> In e (polygon_edges b) -> hb e w) by (intros w (p & q) W E; destruct CB as (_ & _ & CB); now apply CB).
  destruct a as [|a0 a']; [cbn in LA; exfalso; inversion LA|]. destruct b as [|b0 b']; [cbn in LB; exfalso; inversion LB|]. set (a := a0 :: a') in *. set (b := b0 :: b') in *.
  assert (I0 : In a0 a) by now left. assert (J0 : In b0 b) by now left.
  destruct (helly (pred (length L)) L) as (x & H).
  - destruct L eqn:E; [|reflexivity]. unfold L in E. destruct (succ_edge a a0 I0) as (w & W & _). apply (in_map ha) in W. apply app_eq_nil in E. destruct E as (E & _). rewrite E in W. destruct W.
  - intros X HX. destruct (IL X HX) as [((p & q) & E & ->)|((p & q) & E & ->)]; [|apply half_turn]. intros y z t T Hy Hz. unfold ha in *. cbn [fst snd] in *. replace (mi (pl y (sc t (mi z y))) v) with (pl (mi y v) (sc t (mi (mi z v) (mi y v)))) by (punf; apply v2_ext; cbn; ring). now apply (half_turn p q).
  - assert (TWOA : forall e e' f, In e (polygon_edges a) -> In e' (polygon_edges a) -> In f (polygon_edges b) -> exists x, ha e x /\ ha e' x /\ hb f x).
    { intros e e' (p & q) E E' F. destruct (HB p q F) as (w & W & T). exists (pl w v). split; [now apply VA|]. split; [now apply VA|exact T]. }
    assert (TWOB : forall e f f', In e (polygon_edges a) -> In f (polygon_edges b) -> In f' (polygon_edges b) -> exists x, ha e x /\ hb f x /\ hb f' x).
    { intros (p & q) f f' E F F'. destruct (HA p q E) as (w & W & T). exists w. split; [exact T|]. split; now apply VB. }
    intros X Y Z HX HY HZ. destruct (IL X HX) as [(e1 & E1 & ->)|(e1 & E1 & ->)]; destruct (IL Y HY) as [(e2 & E2 & ->)|(e2 & E2 & ->)]; destruct (IL Z HZ) as [(e3 & E3 & ->)|(e3 & E3 & ->)].
    + exists (pl a0 v). auto.
    + now apply TWOA.
    + destruct (TWOA e1 e3 e2 E1 E3 E2) as (x & X1 & X2 & X3). exists x. auto.
    + now apply TWOB.
    + destruct (TWOA e2 e3 e1 E2 E3 E1) as (x & X1 & X2 & X3). exists x. auto.
    + destruct (TWOB e2 e1 e3 E2 E1 E3) as (x & X1 & X2 & X3). exists x. auto.
    + destruct (TWOB e3 e1 e2 E3 E1 E2) as (x & X1 & X2 & X3). exists x. auto.
    + exists b0. auto.
  - exists x. split.
    + unfold shifted. apply C83_halfplanes; [exact CA|exact LA|]. intros p q E. apply (H (ha (p, q))). apply in_or_app. left. now apply in_map.
    + apply C83_halfplanes; [exact CB|exact LB|]. intros p q E. apply (H (hb (p, q))). apply in_or_app. right. now apply in_map.
Qed.
Lemma ccw_left (vs : list p2) p q x : ccw_polygon vs -> In (p, q) (polygon_edges vs) -> in_hull2 vs x -> 0 <= turn p q x.
Proof. intros (_ & _ & C) E H. apply H; [apply half_turn|]. intros v V. now apply C. Qed.
(** The test decides exactly whether two strictly convex counter-clockwise polygons have a common point. *)
Theorem C89_collide (a b : list p2) : ccw_polygon a -> (3 <= length a)%nat -> ccw_polygon b -> (3 <= length b)%nat ->
  (SATCollide2D a b = Some true <-> meet2 (in_hull2 a) (in_hull2 b)) /\ (SATCollide2D a b = Some false <-> ~ meet2 (in_hull2 a) (in_hull2 b)).
Proof.
  intros CA LA CB LB. assert (NA : a <> []) by (intros ->; cbn in LA; inversion LA). assert (NB : b <> []) by (intros ->; cbn in LB; inversion LB).
  assert (S : SATCollide2D a b = Some true <-> meet2 (in_hull2 a) (in_hull2 b)).
  { rewrite (sat_R a b NA NB). split.
    - intros (H1 & H2). assert (O : forall w : p2, mi w o2 = w) by (intros w; punf; apply v2_ext; cbn; ring). assert (O' : forall w : p2, pl w o2 = w) by (intros w; punf; apply v2_ext; cbn; ring).
      destruct (sat_shift a b o2 CA LA CB LB) as (x & X1 & X2); [intros p q E; destruct (H1 p q E) as (w & W & T); exists w; now rewrite O|intros p q E; destruct (H2 p q E) as (w & W & T); exists w; now rewrite O'|]. exists x. unfold shifted in X1. rewrite O in X1. auto.
    - assert (ONE : forall c d x p q, ccw_polygon c -> in_hull2 c x -> in_hull2 d x -> In (p, q) (polygon_edges c) -> exists w, In w d /\ 0 <= turn p q w).
      { intros c d x p q CC Hc Hd E. apply NNPP. intros N. assert (F : turn p q x < 0).
        { apply Hd; [|intros w W; apply Rnot_le_lt; intros T; apply N; exists w; auto]. intros y z t T Hy Hz. replace (turn p q (pl y (sc t (mi z y)))) with ((1 - t) * turn p q y + t * turn p q z) by (punf; ring). nra. }
        pose proof (ccw_left c p q x CC E Hc). lra. }
      intros (x & X1 & X2). split; intros p q E; [apply (ONE a b x)|apply (ONE b a x)]; assumption. }
  split; [exact S|]. rewrite <- S. destruct a as [|a0 a]; [contradiction|]. destruct b as [|b0 b]; [contradiction|]. unfold SATCollide2D. match goal with |- Some ?x = _ <-> _ => destruct x end; split; try discriminate; try tauto; congruence.
Qed.
(** A separating edge alone already excludes a common point, whatever the other list of points. *)
Theorem C89_separates (a b : list p2) : ccw_polygon a -> ccw_polygon b -> a <> [] -> b <> [] -> SATCollide2D a b = Some false -> ~ meet2 (in_hull2 a) (in_hull2 b).
Proof.
  intros CA CB NA NB H M. assert (T : SATCollide2D a b = Some true); [|congruence]. rewrite (sat_R a b NA NB). destruct M as (x & X1 & X2).
  assert (ONE : forall c d p q, ccw_polygon c -> in_hull2 c x -> in_hull2 d x -> In (p, q) (polygon_edges c) -> exists w, In w d /\ 0 <= turn p q w).
  { intros c d p q CC Hc Hd E. apply NNPP. intros N. assert (F : turn p q x < 0).
    { apply Hd; [|intros w W; apply Rnot_le_lt; intros T; apply N; exists w; auto]. intros y z t T Hy Hz. replace (turn p q (pl y (sc t (mi z y)))) with ((1 - t) * turn p q y + t * turn p q z) by (punf; ring). nra. }
    pose proof (ccw_left c p q x CC E Hc). lra. }
  split; intros p q E; [apply (ONE a b)|apply (ONE b a)]; assumption.
Qed.
