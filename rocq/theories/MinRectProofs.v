(** Rotating calipers: supports, one step, the area between two caliper positions. *)
From Coq Require Import Reals Lra Psatz Bool List Lia PeanoNat.
From Verif Require Import Num NumR ScalarModel ScalarProofs Vec2Model Vec2Spec Vec2Props HullModel HullSpec HullProofs HullProps2 MinRectModel MinRectSpec.
Import ListNotations.
Open Scope R_scope.
Ltac m2 := unfold dt, area2, mi, left90 in *; cbn [x2 y2] in *.
Definition unit2 (w : p2) : Prop := dt w w = 1.
(** The side directions of the four calipers: ed and its quarter turns to the left. *)
Definition rot (k : nat) (w : p2) : p2 := match k with O => w | 1%nat => V2 (- y2 w) (x2 w) | 2%nat => V2 (- x2 w) (- y2 w) | _ => V2 (y2 w) (- x2 w) end.
(** w turned by the angle with cosine c and sine s. *)
Definition tb (c s : R) (w : p2) : p2 := V2 (c * x2 w - s * y2 w) (c * y2 w + s * x2 w).
Definition lin2 (a : R) (u : p2) (b : R) (w : p2) : p2 := V2 (a * x2 u + b * x2 w) (a * y2 u + b * y2 w).
(** No point to the right of the line through q in direction w. *)
Definition supp (pts : list p2) (w q : p2) : Prop := forall v, In v pts -> 0 <= area2 w (mi v q).
Lemma rot_tb k c s w : rot k (tb c s w) = tb c s (rot k w).
Proof. destruct k as [|[|[|k]]]; unfold rot, tb; cbn [x2 y2]; apply v2_ext; cbn [x2 y2]; ring. Qed.
Lemma rot_unit k w : unit2 w -> unit2 (rot k w).
Proof. unfold unit2. destruct k as [|[|[|k]]]; unfold rot; m2; lra. Qed.
Lemma rot_lin k a u b w : rot k (lin2 a u b w) = lin2 a (rot k u) b (rot k w).
Proof. destruct k as [|[|[|k]]]; unfold rot, lin2; cbn [x2 y2]; apply v2_ext; cbn [x2 y2]; ring. Qed.
Lemma tb_unit c s w : c * c + s * s = 1 -> unit2 w -> unit2 (tb c s w).
Proof.
  intros E U. unfold unit2, tb in *. m2. transitivity ((c * c + s * s) * (x2 w * x2 w + y2 w * y2 w)); [ring|]. rewrite E, U. ring.
Qed.
(** A unit vector is its neighbour turned by the angle between them. *)
Lemma tb_self w d : unit2 w -> unit2 d -> tb (dt w d) (area2 w d) w = d /\ dt w d * dt w d + area2 w d * area2 w d = 1.
Proof.
  intros W D. unfold unit2, tb in *. m2. split.
  - apply v2_ext; cbn [x2 y2].
    + transitivity ((x2 w * x2 w + y2 w * y2 w) * x2 d); [ring|rewrite W; ring].
    + transitivity ((x2 w * x2 w + y2 w * y2 w) * y2 d); [ring|rewrite W; ring].
  - transitivity ((x2 w * x2 w + y2 w * y2 w) * (x2 d * x2 d + y2 d * y2 d)); [ring|rewrite W, D; ring].
Qed.
Lemma supp_lin pts a u b w q : 0 <= a -> 0 <= b -> supp pts u q -> supp pts w q -> supp pts (lin2 a u b w) q.
Proof.
  intros A B U W v V. specialize (U v V). specialize (W v V). replace (area2 (lin2 a u b w) (mi v q)) with (a * area2 u (mi v q) + b * area2 w (mi v q)) by (unfold lin2; m2; ring).
  apply Rplus_le_le_0_compat; now apply Rmult_le_pos.
Qed.
(** Turning by at most the angle to the next edge keeps a support point. *)
Lemma supp_turn pts w d q c s : unit2 w -> unit2 d -> supp pts w q -> supp pts d q -> (forall v, In v pts -> area2 d (mi v q) = 0 -> 0 <= dt d (mi v q)) ->
  0 <= area2 w d -> dt w d <= c -> 0 <= s -> c * c + s * s = 1 -> supp pts (tb c s w) q.
Proof.
  intros W D Sw Sd F A L S0 E. destruct (tb_self w d W D) as [T U]. set (C := dt w d) in *. set (S := area2 w d) in *. clearbody C S.
  destruct (Rle_lt_or_eq_dec 0 S A) as [P|Z].
  - replace (tb c s w) with (lin2 ((S * c - C * s) / S) w (s / S) d).
    + apply supp_lin; try assumption.
      * apply Rle_mult_inv_pos; [|exact P]. destruct (Rle_lt_dec C 0) as [N|N].
        { destruct (Rle_lt_dec 0 c) as [K|K]; [nra|]. assert (c * c <= C * C) by nra. assert (s * s >= S * S) by lra. assert (S <= s) by nra. nra. }
        assert (C * C <= c * c) by nra. assert (s * s <= S * S) by lra. assert (s <= S) by nra. nra.
      * apply Rle_mult_inv_pos; assumption.
    + rewrite <- T. unfold lin2, tb. apply v2_ext; cbn [x2 y2]; field; lra.
  - subst S. assert (CC : C * C = 1) by lra. assert (K : C = 1 \/ C = -1) by (destruct (Rle_lt_dec 0 C); [left|right]; nra). destruct K as [K|K]; subst C.
    + assert (c = 1) by nra. subst c. assert (s = 0) by nra. subst s. replace (tb 1 0 w) with w by (unfold tb; apply v2_ext; cbn; ring). exact Sw.
    + intros v V. specialize (F v V). assert (E1 : d = V2 (- x2 w) (- y2 w)) by (rewrite <- T; unfold tb; apply v2_ext; cbn; ring).
      pose proof (Sw v V) as X. pose proof (Sd v V) as Y. rewrite E1 in F, Y. assert (Z0 : area2 w (mi v q) = 0) by (clear - X Y; m2; lra).
      replace (area2 (tb c s w) (mi v q)) with (c * area2 w (mi v q) + s * - dt w (mi v q)) by (unfold tb; m2; ring). rewrite Z0.
      assert (0 <= - dt w (mi v q)). { replace (- dt w (mi v q)) with (dt (V2 (- x2 w) (- y2 w)) (mi v q)) by (m2; ring). apply F. clear - Z0. m2. lra. } nra.
Qed.
(** * Supports on all four sides *)
Definition sides (pts : list p2) (w : p2) (q : nat -> p2) : Prop := forall k, (k < 4)%nat -> supp pts (rot k w) (q k).
Definition spanU (w : p2) (q : nat -> p2) : R := dt (left90 w) (mi (q 2%nat) (q 0%nat)).
Definition spanV (w : p2) (q : nat -> p2) : R := dt w (mi (q 1%nat) (q 3%nat)).
Lemma sides_bounds pts w q : sides pts w q -> boxes w (dt (left90 w) (q 0%nat)) (dt (left90 w) (q 2%nat)) (dt w (q 3%nat)) (dt w (q 1%nat)) pts.
Proof.
  intros S p P. pose proof (S 0%nat ltac:(lia) p P) as A. pose proof (S 1%nat ltac:(lia) p P) as B. pose proof (S 2%nat ltac:(lia) p P) as C. pose proof (S 3%nat ltac:(lia) p P) as D.
  unfold rot in *. clear S. m2. lra.
Qed.
(** With corners that are points of the set, every enclosing rectangle is at least as wide and as high. *)
Lemma sides_least pts w q : (forall k, In (q k) pts) -> sides pts w q -> least_at (spanU w q * spanV w q) w pts /\ (forall u0 u1 v0 v1, boxes w u0 u1 v0 v1 pts -> 0 <= spanU w q <= u1 - u0 /\ 0 <= spanV w q <= v1 - v0).
Proof.
  intros I S. assert (G : forall u0 u1 v0 v1, boxes w u0 u1 v0 v1 pts -> 0 <= spanU w q <= u1 - u0 /\ 0 <= spanV w q <= v1 - v0).
  { intros u0 u1 v0 v1 B. destruct (sides_bounds pts w q S (q 0%nat) (I 0%nat)) as [A0 _]. destruct (sides_bounds pts w q S (q 1%nat) (I 1%nat)) as [_ A1].
    destruct (B _ (I 0%nat)) as [B0 _]. destruct (B _ (I 2%nat)) as [B2 _]. destruct (B _ (I 1%nat)) as [_ B1]. destruct (B _ (I 3%nat)) as [_ B3].
    unfold spanU, spanV. clear - A0 A1 B0 B1 B2 B3. m2. lra. }
  split; [|exact G]. intros u0 u1 v0 v1 B. destruct (G _ _ _ _ B) as [X Y]. apply Rmult_le_compat; lra.
Qed.
Lemma least_turn m w pts : least_at m (left90 w) pts <-> least_at m w pts.
Proof.
  split; intros L u0 u1 v0 v1 B.
  - replace ((u1 - u0) * (v1 - v0)) with ((- v0 - - v1) * (u1 - u0)) by ring. apply L. intros p P. destruct (B p P) as [X Y]. clear - X Y. m2. lra.
  - replace ((u1 - u0) * (v1 - v0)) with ((v1 - v0) * (- u0 - - u1)) by ring. apply L. intros p P. destruct (B p P) as [X Y]. clear - X Y. m2. lra.
Qed.
Lemma least_mono m m' w pts : m' <= m -> least_at m w pts -> least_at m' w pts.
Proof. intros L A u0 u1 v0 v1 B. specialize (A _ _ _ _ B). lra. Qed.
(** Between two positions with the same support points the area is nowhere below both ends. *)
Lemma least_between m pts q w1 w2 a b : 0 <= m -> unit2 w1 -> unit2 w2 -> 0 <= a -> 0 <= b -> unit2 (lin2 a w1 b w2) -> (forall k, In (q k) pts) ->
  sides pts w1 q -> sides pts w2 q -> least_at m w1 pts -> least_at m w2 pts -> least_at m (lin2 a w1 b w2) pts.
Proof.
  intros M U1 U2 A B U I S1 S2 L1 L2.
  assert (S : sides pts (lin2 a w1 b w2) q) by (intros k K; rewrite rot_lin; apply supp_lin; auto).
  destruct (sides_least pts _ q I S) as [L _]. apply (least_mono (spanU (lin2 a w1 b w2) q * spanV (lin2 a w1 b w2) q)); [|exact L].
  pose proof (L1 _ _ _ _ (sides_bounds _ _ _ S1)) as P1. pose proof (L2 _ _ _ _ (sides_bounds _ _ _ S2)) as P2.
  destruct (proj2 (sides_least pts w1 q I S1) _ _ _ _ (sides_bounds _ _ _ S1)) as [X1 Y1]. destruct (proj2 (sides_least pts w2 q I S2) _ _ _ _ (sides_bounds _ _ _ S2)) as [X2 Y2].
  replace (spanU (lin2 a w1 b w2) q) with (a * spanU w1 q + b * spanU w2 q) by (unfold spanU, lin2; m2; ring).
  replace (spanV (lin2 a w1 b w2) q) with (a * spanV w1 q + b * spanV w2 q) by (unfold spanV, lin2; m2; ring).
  assert (E1 : (dt (left90 w1) (q 2%nat) - dt (left90 w1) (q 0%nat)) * (dt w1 (q 1%nat) - dt w1 (q 3%nat)) = spanU w1 q * spanV w1 q) by (unfold spanU, spanV; m2; ring).
  assert (E2 : (dt (left90 w2) (q 2%nat) - dt (left90 w2) (q 0%nat)) * (dt w2 (q 1%nat) - dt w2 (q 3%nat)) = spanU w2 q * spanV w2 q) by (unfold spanU, spanV; m2; ring).
  rewrite E1 in P1. rewrite E2 in P2. clear E1 E2.
  assert (N : 1 <= (a + b) * (a + b)).
  { assert (K : dt w1 w2 <= 1) by (unfold unit2 in U1, U2; clear - U1 U2; pose proof (Rle_0_sqr (x2 w1 - x2 w2)); pose proof (Rle_0_sqr (y2 w1 - y2 w2)); unfold Rsqr in *; m2; lra).
    assert (Q : a * a * dt w1 w1 + b * b * dt w2 w2 + 2 * (a * b) * dt w1 w2 = 1) by (rewrite <- U; unfold lin2; m2; ring). unfold unit2 in U1, U2. rewrite U1, U2 in Q.
    assert (0 <= a * b) by nra. nra. }
  destruct X1 as [X1 _], Y1 as [Y1 _], X2 as [X2 _], Y2 as [Y2 _].
  revert P1 P2 X1 Y1 X2 Y2. generalize (spanU w1 q) (spanV w1 q) (spanU w2 q) (spanV w2 q). clear - M A B N. intros u1 v1 u2 v2 P1 P2 X1 Y1 X2 Y2.
  assert (G : 2 * m <= u1 * v2 + u2 * v1).
  { set (g := u1 * v2) in *. set (h := u2 * v1) in *. assert (G0 : 0 <= g) by (apply Rmult_le_pos; assumption). assert (H0 : 0 <= h) by (apply Rmult_le_pos; assumption).
    assert (GH : m * m <= g * h) by (replace (g * h) with ((u1 * v1) * (u2 * v2)) by (unfold g, h; ring); apply Rmult_le_compat; lra).
    assert (4 * (m * m) <= (g + h) * (g + h)) by (assert (0 <= (g - h) * (g - h)) by apply Rle_0_sqr; lra). clearbody g h. nra. }
  assert (AB : 0 <= a * b) by nra. assert (AA : 0 <= a * a) by nra. assert (BB : 0 <= b * b) by nra.
  assert (Q : m * ((a + b) * (a + b)) <= (a * u1 + b * u2) * (a * v1 + b * v2)).
  { replace ((a * u1 + b * u2) * (a * v1 + b * v2)) with (a * a * (u1 * v1) + b * b * (u2 * v2) + a * b * (u1 * v2 + u2 * v1)) by ring.
    pose proof (Rmult_le_compat_l _ _ _ AA P1). pose proof (Rmult_le_compat_l _ _ _ BB P2). pose proof (Rmult_le_compat_l _ _ _ AB G). nra. }
  nra.
Qed.
(** Directions between two others, by signed areas. *)
Lemma cone w1 w2 w : unit2 w1 -> unit2 w2 -> unit2 w -> 0 <= area2 w1 w2 -> 0 <= dt w1 w2 -> 0 <= area2 w1 w -> 0 <= area2 w w2 -> 0 <= dt w1 w -> exists a b, 0 <= a /\ 0 <= b /\ w = lin2 a w1 b w2.
Proof.
  intros U1 U2 U A D A1 A2 D1. destruct (Rle_lt_or_eq_dec _ _ A) as [P|Z].
  - exists (area2 w w2 / area2 w1 w2), (area2 w1 w / area2 w1 w2). split; [now apply Rle_mult_inv_pos|]. split; [now apply Rle_mult_inv_pos|].
    unfold lin2. apply v2_ext; cbn [x2 y2]; apply (Rmult_eq_reg_r (area2 w1 w2)); try lra.
    + replace ((area2 w w2 / area2 w1 w2 * x2 w1 + area2 w1 w / area2 w1 w2 * x2 w2) * area2 w1 w2) with (area2 w w2 * x2 w1 + area2 w1 w * x2 w2) by (field; lra). m2. ring.
    + replace ((area2 w w2 / area2 w1 w2 * y2 w1 + area2 w1 w / area2 w1 w2 * y2 w2) * area2 w1 w2) with (area2 w w2 * y2 w1 + area2 w1 w * y2 w2) by (field; lra). m2. ring.
  - destruct (tb_self w1 w2 U1 U2) as [T E]. rewrite <- Z in T, E. assert (D2 : dt w1 w2 = 1) by nra. rewrite D2 in T. assert (W : w2 = w1) by (rewrite <- T; unfold tb; apply v2_ext; cbn; ring). clear T Z E D2 A D. subst w2.
    destruct (tb_self w1 w U1 U) as [T1 E1]. assert (Z1 : area2 w1 w = 0). { clear - A1 A2. assert (X : area2 w w1 = - area2 w1 w) by (unfold area2; ring). rewrite X in A2. lra. }
    rewrite Z1 in T1, E1. assert (D3 : dt w1 w = 1) by nra.
    exists 1, 0. split; [lra|]. split; [lra|]. transitivity (tb (dt w1 w) 0 w1); [now symmetry|]. rewrite D3. unfold tb, lin2. apply v2_ext; cbn [x2 y2]; ring.
Qed.
