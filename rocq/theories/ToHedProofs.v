(** Proofs for C111: a truncated pyramid in local coordinates is a convex polyhedron. *)
From Coq Require Import Reals Lra Psatz ZArith Bool List Permutation Lia.
From Verif Require Import Num NumR ScalarProofs Vec3Model GeoTypes GeoSpec GeoLemmas AabbSpec MatModel MatSpec MatProofs MatProofs2 SphereSpec ObbProps PolyTopoModel PolyTopoSpec PolyTopoProofs PolyTopoProps PolyhedronModel PolyhedronSpec PolyhedronProofs PolyhedronProps PolyhedronProps4 ToHedModel.
Import ListNotations.
Open Scope R_scope.
Ltac Zify.zify_post_hook ::= idtac.

(** Half sizes a, b at height n and A, B at height f, with the corners in the order ---, --+, -+-, ... *)
Definition trunc (a b A B n f : R) : list pt :=
  [V3 (-a) (-b) n; V3 (-A) (-B) f; V3 (-a) b n; V3 (-A) B f; V3 a (-b) n; V3 A (-B) f; V3 a b n; V3 A B f].
Definition backTable : list face := map (@rev Z) frustumTable.
Ltac each H := repeat (destruct H as [<-|H]); try contradiction.
Ltac at_cbn := unfold at_index, trunc; change (Z.to_nat 0) with 0%nat; change (Z.to_nat 1) with 1%nat; change (Z.to_nat 2) with 2%nat; change (Z.to_nat 3) with 3%nat; change (Z.to_nat 4) with 4%nat; change (Z.to_nat 5) with 5%nat; change (Z.to_nat 6) with 6%nat; change (Z.to_nat 7) with 7%nat; cbn [nth].
Ltac coords := at_cbn; unfold cross; gunf; cbn [vx vy vz].
Ltac edges I := match type of I with In _ (directed ?l) => let r := eval vm_compute in (directed l) in change (directed l) with r in I end.
Ltac outface := constructor;
  [ let x := fresh in let y := fresh in let X := fresh in let Y := fresh in intros x y X Y; each X; each Y; coords; ring
  | let I := fresh in let X := fresh in intros ? ? ? I X; edges I; cbn [In] in I; repeat (destruct I as [I|I]; [injection I as <- <-; each X; coords; lra|]); contradiction
  | cbn [nth]; coords; lra
  | let X := fresh in let W := fresh in intros ? ? X W; unfold trunc in W; cbn [In] in W; each X; each W; coords; lra ].
Ltac face v := exists v; split; [outface|let X := fresh in intros ? X; each X; coords; lra].

Section Local.
  Context (a b e g n d : R) (PA : 0 < a) (PB : 0 < b) (PE : 0 < a + e) (PG : 0 < b + g) (PD : 0 < d).
  Lemma facts : 0 < a * d /\ 0 < b * d /\ 0 < (a + e) * d /\ 0 < (b + g) * d /\ 0 < a * b /\ 0 < (a + e) * (b + g) /\
    0 < a * (d * d + g * g) /\ 0 < (a + e) * (d * d + g * g) /\ 0 < b * (d * d + e * e) /\ 0 < (b + g) * (d * d + e * e).
  Proof.
    assert (D2 : 0 < d * d) by nra. assert (0 < d * d + g * g) by nra. assert (0 < d * d + e * e) by nra. repeat split; now apply Rmult_lt_0_compat.
  Qed.
  Definition up := trunc a b (a + e) (b + g) n (n + d).
  Definition down := trunc a b (a + e) (b + g) n (n - d).
  Lemma up_box f : In f boxTable -> exists v, outward up f v /\ forall x, In x f -> dot v (minus (V3 0 0 (n + d / 2)) (at_index up x)) < 0.
  Proof.
    destruct facts as (F1 & F2 & F3 & F4 & F5 & F6 & F7 & F8 & F9 & F10). unfold up. intros F. cbn [In boxTable] in F.
    destruct F as [<-|[<-|[<-|[<-|[<-|[<-|[]]]]]]].
    - face (V3 (-d) 0 (-e)).
    - face (V3 d 0 (-e)).
    - face (V3 0 (-d) (-g)).
    - face (V3 0 d (-g)).
    - face (V3 0 0 (-1)).
    - face (V3 0 0 1).
  Qed.
  Lemma up_back f : In f backTable -> exists v, outward up f v /\ forall x, In x f -> dot v (minus (V3 0 0 (n + d / 2)) (at_index up x)) < 0.
  Proof.
    destruct facts as (F1 & F2 & F3 & F4 & F5 & F6 & F7 & F8 & F9 & F10). unfold up. intros F. cbn [In backTable frustumTable map rev app] in F.
    destruct F as [<-|[<-|[<-|[<-|[<-|[<-|[]]]]]]].
    - face (V3 0 0 (-1)).
    - face (V3 0 0 1).
    - face (V3 (-d) 0 (-e)).
    - face (V3 d 0 (-e)).
    - face (V3 0 d (-g)).
    - face (V3 0 (-d) (-g)).
  Qed.
  Lemma down_table f : In f frustumTable -> exists v, outward down f v /\ forall x, In x f -> dot v (minus (V3 0 0 (n - d / 2)) (at_index down x)) < 0.
  Proof.
    destruct facts as (F1 & F2 & F3 & F4 & F5 & F6 & F7 & F8 & F9 & F10). unfold down. intros F. cbn [In frustumTable] in F.
    destruct F as [<-|[<-|[<-|[<-|[<-|[<-|[]]]]]]].
    - face (V3 0 0 1).
    - face (V3 0 0 (-1)).
    - face (V3 (-d) 0 e).
    - face (V3 d 0 e).
    - face (V3 0 d g).
    - face (V3 0 (-d) g).
  Qed.
  Lemma box_valid : valid 8 boxTable. Proof. apply C95_valid. reflexivity. Qed.
  Lemma back_valid : valid 8 backTable. Proof. apply C95_valid. reflexivity. Qed.
  Lemma frustum_valid : valid 8 frustumTable. Proof. apply C95_valid. reflexivity. Qed.
  Lemma box_closed : closed boxTable. Proof. apply (C95_closed_valid 8); [exact box_valid|reflexivity]. Qed.
  Lemma back_closed : closed backTable. Proof. apply (C95_closed_valid 8); [exact back_valid|reflexivity]. Qed.
  Lemma frustum_closed : closed frustumTable. Proof. apply (C95_closed_valid 8); [exact frustum_valid|reflexivity]. Qed.
  Lemma up_box_solid : convex_solid up boxTable.
  Proof. split; [exact box_valid|]. split; [exact box_closed|]. split; [discriminate|]. exists (V3 0 0 (n + d / 2)). exact up_box. Qed.
  Lemma up_back_solid : convex_solid up backTable.
  Proof. split; [exact back_valid|]. split; [exact back_closed|]. split; [discriminate|]. exists (V3 0 0 (n + d / 2)). exact up_back. Qed.
  Lemma down_solid : convex_solid down frustumTable.
  Proof. split; [exact frustum_valid|]. split; [exact frustum_closed|]. split; [discriminate|]. exists (V3 0 0 (n - d / 2)). exact down_table. Qed.
End Local.

(** ** The points of the truncated pyramid *)
Definition in_trunc (a b A B n f : R) (q : pt) : Prop :=
  exists t, 0 <= t <= 1 /\ vz q = n + t * (f - n) /\ - (a + t * (A - a)) <= vx q <= a + t * (A - a) /\ - (b + t * (B - b)) <= vy q <= b + t * (B - b).
Lemma convex_trunc a b A B n f : convex (in_trunc a b A B n f).
Proof.
  intros p q k (t & T & Z & X & Y) (t' & T' & Z' & X' & Y') K. exists (t + k * (t' - t)). split; [nra|]. gunf. cbn [vx vy vz].
  assert (C : forall u v, u <= 0 -> v <= 0 -> u + k * (v - u) <= 0) by (intros; nra).
  repeat split.
  - rewrite Z, Z'. ring.
  - pose proof (C (- (a + t * (A - a)) - vx p) (- (a + t' * (A - a)) - vx q) ltac:(lra) ltac:(lra)). lra.
  - pose proof (C (vx p - (a + t * (A - a))) (vx q - (a + t' * (A - a))) ltac:(lra) ltac:(lra)). lra.
  - pose proof (C (- (b + t * (B - b)) - vy p) (- (b + t' * (B - b)) - vy q) ltac:(lra) ltac:(lra)). lra.
  - pose proof (C (vy p - (b + t * (B - b))) (vy q - (b + t' * (B - b))) ltac:(lra) ltac:(lra)). lra.
Qed.
Lemma trunc_hull a b A B n f q : 0 < a -> 0 < b -> 0 < A -> 0 < B -> (in_hull (trunc a b A B n f) q <-> in_trunc a b A B n f q).
Proof.
  intros PA PB PA' PB'. split.
  - intros H. apply H; [apply convex_trunc|]. intros v V. unfold trunc in V. cbn [In] in V.
    repeat (destruct V as [<-|V]; [first [exists 0; repeat split; cbn [vx vy vz]; lra | exists 1; repeat split; cbn [vx vy vz]; lra]|]). contradiction.
  - intros (t & T & Z & X & Y) S CV H. set (w := a + t * (A - a)) in *. set (h := b + t * (B - b)) in *. assert (W : 0 < w) by (unfold w; nra). assert (HP : 0 < h) by (unfold h; nra).
    assert (E : forall sx sy, In (V3 (sx * a) (sy * b) n) (trunc a b A B n f) -> In (V3 (sx * A) (sy * B) f) (trunc a b A B n f) -> S (V3 (sx * w) (sy * h) (vz q))).
    { intros sx sy I J. replace (V3 _ _ _) with (plus (V3 (sx * a) (sy * b) n) (scale t (minus (V3 (sx * A) (sy * B) f) (V3 (sx * a) (sy * b) n)))) by (apply vec_ext; gunf; cbn [vx vy vz]; unfold w, h; rewrite ?Z; ring). apply CV; [now apply H|now apply H|exact T]. }
    assert (IN : forall sx sy, (sx = 1 \/ sx = -1) -> (sy = 1 \/ sy = -1) -> S (V3 (sx * w) (sy * h) (vz q))).
    { intros sx sy SX SY. apply E; unfold trunc; cbn [In]; destruct SX as [-> | ->], SY as [-> | ->]; rewrite ?Rmult_1_l; replace (-1 * a) with (- a) by ring; replace (-1 * b) with (- b) by ring; replace (-1 * A) with (- A) by ring; replace (-1 * B) with (- B) by ring; tauto. }
    set (k := (vx q + w) / (2 * w)). assert (K : 0 <= k <= 1) by (unfold k; split; [apply Rmult_le_pos; [lra|left; apply Rinv_0_lt_compat; lra]|apply (Rmult_le_reg_r (2 * w)); [lra|]; field_simplify; lra]).
    assert (KW : k * (2 * w) = vx q + w) by (unfold k; field; lra).
    assert (XS : forall sy, (sy = 1 \/ sy = -1) -> S (V3 (vx q) (sy * h) (vz q))).
    { intros sy SY. replace (V3 _ _ _) with (plus (V3 (-1 * w) (sy * h) (vz q)) (scale k (minus (V3 (1 * w) (sy * h) (vz q)) (V3 (-1 * w) (sy * h) (vz q))))) by (apply vec_ext; gunf; cbn [vx vy vz]; try ring; lra). apply CV; [apply IN; tauto|apply IN; tauto|exact K]. }
    set (j := (vy q + h) / (2 * h)). assert (J : 0 <= j <= 1) by (unfold j; split; [apply Rmult_le_pos; [lra|left; apply Rinv_0_lt_compat; lra]|apply (Rmult_le_reg_r (2 * h)); [lra|]; field_simplify; lra]).
    assert (JH : j * (2 * h) = vy q + h) by (unfold j; field; lra).
    replace q with (plus (V3 (vx q) (-1 * h) (vz q)) (scale j (minus (V3 (vx q) (1 * h) (vz q)) (V3 (vx q) (-1 * h) (vz q))))) by (apply vec_ext; gunf; cbn [vx vy vz]; try ring; lra). apply CV; [apply XS; tauto|apply XS; tauto|exact J].
Qed.
(** ** Volumes *)
Lemma trunc_volume a b A B n f :
  total (fun w => total (tetra6 (trunc a b A B n f) origin w) (directed w)) boxTable = 2 * (f - n) * (4 * a * b + 4 * A * B + 2 * a * B + 2 * A * b) /\
  total (fun w => total (tetra6 (trunc a b A B n f) origin w) (directed w)) backTable = 2 * (f - n) * (4 * a * b + 4 * A * B + 2 * a * B + 2 * A * b) /\
  total (fun w => total (tetra6 (trunc a b A B n f) origin w) (directed w)) frustumTable = 2 * (n - f) * (4 * a * b + 4 * A * B + 2 * a * B + 2 * A * b).
Proof.
  repeat split; unfold backTable, frustumTable, boxTable; cbn [map rev app total]; repeat match goal with |- context [directed ?l] => let r := eval vm_compute in (directed l) in change (directed l) with r end; cbn [total]; unfold tetra6, corner0, volume, origin; cbn [fst snd nth]; coords; ring.
Qed.
Lemma total_affine m vs fs q : valid (length vs) fs -> total (fun w => total (tetra6 (map (mulpos34 m) vs) (mulpos34 m q) w) (directed w)) fs = det34 m * total (fun w => total (tetra6 vs q w) (directed w)) fs.
Proof.
  intros V. rewrite <- total_scale. apply total_ext. intros f F. rewrite <- total_scale. apply total_ext. intros (a & b) I. destruct (V f F) as (L & _ & B). apply directed_vertex in I as (A & A').
  unfold tetra6, corner0. cbn [fst snd]. rewrite !at_map by (apply B; try assumption; apply nth_In; lia). rewrite !affine_minus. apply lin_volume.
Qed.
(** ** Into the world *)
Definition fm (o : obb R) : mat34 R := M34 (ofCols (oaxis0 o) (oaxis1 o) (oaxis2 o)) (opos o).
Lemma fm_at o q : mulpos34 (fm o) q = at_ o (vx q) (vy q) (vz q).
Proof. unfold mulpos34, fm, ofCols, mk3, at_. rsimpl. apply vec_ext; gunf; cbn [vx vy vz lin34 trans34 row0 row1 row2]; ring. Qed.
Lemma fm_det o : det34 (fm o) = volume (oaxis0 o) (oaxis1 o) (oaxis2 o).
Proof. unfold det34, fm, ofCols, mk3, volume. cbn [vx vy vz lin34 row0 row1 row2]. ring. Qed.
