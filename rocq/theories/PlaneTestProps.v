(** C88: the GJK test in the plane. *)
From Coq Require Import Reals Psatz List Bool Classical.
From Verif Require Import Num NumR ScalarModel ScalarProofs Vec2Model Vec2Spec Vec2Props HullModel HullSpec HullProofs HullProps2 GjkModel PlaneTestModel PlaneTestSpec PlaneTestProofs.
Import ListNotations.
Open Scope R_scope.
Ltac Zify.zify_post_hook ::= idtac.

Lemma difference2_convex A B : convex2 A -> convex2 B -> convex2 (difference2 A B).
Proof.
  intros CA CB x y k K (a & b & Ha & Hb & ->) (a' & b' & Ha' & Hb' & ->). exists (pl a (sc k (mi a' a))), (pl b (sc k (mi b' b))). split; [now apply CA|]. split; [now apply CB|].
  punf. apply v2_ext; cbn [x2 y2]; ring.
Qed.
Lemma origin_meet2 A B : difference2 A B o2 <-> meet2 A B.
Proof.
  split.
  - intros (a & b & Ha & Hb & E). exists a. split; [exact Ha|]. replace a with b; [exact Hb|]. symmetry. apply mi_zero. now symmetry.
  - intros (p & Ha & Hb). exists p, p. split; [exact Ha|]. split; [exact Hb|]. punf. apply v2_ext; cbn [x2 y2]; ring.
Qed.
Lemma dst_sq_le a b r : 0 <= r -> (dst a b <= r <-> dt (mi a b) (mi a b) <= r * r).
Proof.
  intros Hr. unfold dst, nrm. split; intros H.
  - rewrite <- (sqrt_sqrt (dt (mi a b) (mi a b))) by apply dt_pos. pose proof (sqrt_pos (dt (mi a b) (mi a b))). nra.
  - rewrite <- (sqrt_square r Hr). apply sqrt_le_1; [apply dt_pos|nra|exact H].
Qed.

Section Loop2.
  Context (a b : shape2 R) (A B : p2 -> Prop) (HA : supports2 a A) (HB : supports2 b B).
  Lemma loop2_miss n : forall S d, gjkLoop2D a b n S d = Miss -> ~ meet2 A B.
  Proof.
    destruct HA as (_ & _ & SA). destruct HB as (_ & _ & SB).
    induction n as [|n IH]; intros S d; cbn [gjkLoop2D]; [discriminate|]. change (@neg2 R Num_R) with neg. pose proof (SA d) as (_ & _ & SA'). pose proof (SB (neg d)) as (_ & _ & SB').
    destruct (extremePoint2 a d) as (pa & maxS). destruct (extremePoint2 b (neg d)) as (pb & minS). cbn [fst snd] in *. change (@nadd R Num_R minS maxS) with (minS + maxS). change (@nltb R Num_R (minS + maxS) n0) with (Rltb (minS + maxS) 0).
    destruct (Rltb_spec (minS + maxS) 0) as [L|L].
    - intros _ (p & Pa & Pb). specialize (SA' p Pa). specialize (SB' p Pb). rewrite dt_comm, dt_neg, dt_comm in SB'. lra.
    - destruct (UpdateSimplex2D S _) as [(S' & d')|]; [apply IH|discriminate].
  Qed.
  Let M := difference2 A B.
  Context (NM : ~ M o2).
  Lemma loop2_hit n : forall S d, good2 M S d -> gjkLoop2D a b n S d = Hit -> match S with P1 s0 => dt s0 s0 <= 1 / 10000000 | _ => False end.
  Proof.
    assert (MC : convex2 M) by (apply difference2_convex; [apply HA|apply HB]).
    destruct HA as (_ & _ & SA). destruct HB as (_ & _ & SB).
    induction n as [|n IH]; intros S d G; cbn [gjkLoop2D]; [discriminate|]. change (@neg2 R Num_R) with neg. pose proof (SA d) as (IA & SA' & _). pose proof (SB (neg d)) as (IB & SB' & _).
    destruct (extremePoint2 a d) as (pa & maxS). destruct (extremePoint2 b (neg d)) as (pb & minS). cbn [fst snd] in *. change (@nadd R Num_R minS maxS) with (minS + maxS). change (@nltb R Num_R (minS + maxS) n0) with (Rltb (minS + maxS) 0).
    destruct (Rltb_spec (minS + maxS) 0) as [L|L]; [discriminate|]. change (@sub2 R Num_R pa pb) with (mi pa pb). set (p := mi pa pb). assert (MP : M p) by (exists pa, pb; auto).
    assert (DP : 0 <= dt d p) by (unfold p; rewrite dt_mi_r; rewrite dt_comm, dt_neg, dt_comm in SB'; lra).
    intros H. destruct S as [s0|s0 s1]; cbn [UpdateSimplex2D] in H.
    - pose proof (update2_2 M MC NM s0 d p G MP DP) as U. assert (NS : forall s S d, UpdateSimplex2D_2 s0 p = Some (S, d) -> S <> P1 s) by (intros s S' d'; unfold UpdateSimplex2D_2; cbv zeta; destruct (nltb _ _); [intros E; injection E as <- <-; discriminate|discriminate]).
      destruct (UpdateSimplex2D_2 s0 p) as [(S' & d')|]; [|exact U]. specialize (IH S' d' U H). destruct S' as [s|]; [exfalso; now apply (NS s (P1 s) d')|contradiction].
    - pose proof (update2_3 M MC NM s0 s1 d p G MP DP) as U. assert (NS : forall s S d, UpdateSimplex2D_3 s0 s1 p = Some (S, d) -> S <> P1 s) by (intros s S' d'; unfold UpdateSimplex2D_3; cbv zeta; destruct (nltb _ _); [|destruct (nltb _ _)]; intros E; try discriminate E; injection E as <- <-; discriminate).
      destruct (UpdateSimplex2D_3 s0 s1 p) as [(S' & d')|]; [|exact U]. specialize (IH S' d' U H). destruct S' as [s|]; [exfalso; now apply (NS s (P1 s) d')|contradiction].
  Qed.
End Loop2.

(** A negative answer with a separating direction is right: the bodies have no common point. *)
Theorem C88_miss (a b : shape2 R) (A B : p2 -> Prop) : supports2 a A -> supports2 b B -> gjkRun2D a b = Miss -> ~ meet2 A B.
Proof. intros HA HB. unfold gjkRun2D. destruct (nltb _ _); [discriminate|]. now apply loop2_miss. Qed.
(** A positive answer: the bodies meet, or else the two starting points themselves are within a third of a thousandth. *)
Theorem C88_hit (a b : shape2 R) (A B : p2 -> Prop) : supports2 a A -> supports2 b B -> gjkRun2D a b = Hit -> meet2 A B \/ dst (anyPoint2 a) (anyPoint2 b) <= 1 / 3000.
Proof.
  intros HA HB. rewrite <- origin_meet2. set (M := difference2 A B). assert (M0 : M (mi (anyPoint2 a) (anyPoint2 b))) by (exists (anyPoint2 a), (anyPoint2 b); split; [apply HA|split; [apply HB|reflexivity]]).
  destruct (classic (M o2)) as [O|NO]; [intros _; now left|]. rewrite dst_sq_le by lra.
  unfold gjkRun2D. change (@sub2 R Num_R) with mi. set (s0 := mi (anyPoint2 a) (anyPoint2 b)) in *. change (@LengthSq2 R Num_R s0) with (dt s0 s0). change (@nltb R Num_R) with Rltb. rewrite nlit_R. destruct (Rltb_spec (dt s0 s0) (IZR 1 / IZR (Z.pos 10000000))) as [L|L].
  - intros _. right. cbn in L. lra.
  - intros H. change (@neg2 R Num_R s0) with (neg s0) in H. assert (G : good2 M (P1 s0) (neg s0)).
    { split; [|intros p [<-|[]]; exact M0]. split; [reflexivity|]. intros Z. cbn in L. assert (dt s0 s0 = 0); [|lra]. replace (dt s0 s0) with (dt (neg s0) (neg s0)) by (unfold neg; punf; ring). rewrite Z. punf. ring. }
    pose proof (loop2_hit a b A B HA HB NO 50 (P1 s0) _ G H) as X. cbn in X. right. lra.
Qed.
(** The Boolean test. *)
Theorem C88_test (a b : shape2 R) (A B : p2 -> Prop) : supports2 a A -> supports2 b B ->
  (GJKIntersect2D a b = true -> reach2 A B (1 / 3000)) /\ (1 / 3000 < dst (anyPoint2 a) (anyPoint2 b) -> GJKIntersect2D a b = true -> meet2 A B) /\
  (GJKIntersect2D a b = false -> gjkRun2D a b = GaveUp \/ ~ meet2 A B) /\ (meet2 A B -> gjkRun2D a b <> GaveUp -> GJKIntersect2D a b = true).
Proof.
  intros HA HB. pose proof (C88_miss a b A B HA HB) as MI. pose proof (C88_hit a b A B HA HB) as HI. unfold GJKIntersect2D. destruct (gjkRun2D a b).
  - specialize (HI eq_refl). clear MI. repeat split; try discriminate; try tauto.
    + intros _. destruct HI as [(p & Ha & Hb)|HI]; [exists p, p; split; [exact Ha|]; split; [exact Hb|]; rewrite (proj2 (dst_zero p p) eq_refl); lra|exists (anyPoint2 a), (anyPoint2 b); split; [apply HA|]; split; [apply HB|exact HI]].
    + intros K _. destruct HI as [HI|HI]; [exact HI|lra].
  - specialize (MI eq_refl). clear HI. repeat split; try discriminate; try tauto.
  - clear MI HI. repeat split; try discriminate; try tauto.
Qed.

(** ** The shapes *)
Lemma hull_convex vs : convex2 (in_hull2 vs).
Proof. intros a b t T Ha Hb A CA IA. apply CA; [exact T|now apply Ha|now apply Hb]. Qed.
Lemma half_convex d m : convex2 (fun p => dt d p <= m).
Proof. intros a b t (T0 & T1) Ha Hb. replace (dt d (pl a (sc t (mi b a)))) with ((1 - t) * dt d a + t * dt d b) by (punf; ring). nra. Qed.
Definition pick (d : p2) (best : p2 * R) (q : p2) : p2 * R := if Rltb (snd best) (dt d q) then (q, dt d q) else best.
Lemma polygon_best d : forall rest (best : p2 * R), snd best = dt d (fst best) ->
  let r := fold_left (pick d) rest best in
  (fst r = fst best \/ In (fst r) rest) /\ snd r = dt d (fst r) /\ snd best <= snd r /\ forall q, In q rest -> dt d q <= snd r.
Proof.
  induction rest as [|q rest IH]; intros best E; cbn [fold_left]; cbv zeta.
  - split; [now left|]. split; [exact E|]. split; [apply Rle_refl|intros q []].
  - assert (PK : pick d best q = if Rltb (snd best) (dt d q) then (q, dt d q) else best) by reflexivity. rewrite PK. destruct (Rltb_spec (snd best) (dt d q)) as [L|L].
    + destruct (IH (q, dt d q) eq_refl) as (I1 & I2 & I3 & I4). cbn [fst snd] in *. split; [right; destruct I1 as [->|I1]; [now left|now right]|]. split; [exact I2|]. split; [apply Rle_trans with (dt d q); [apply Rlt_le, L|exact I3]|]. intros q' [<-|Q]; [exact I3|now apply I4].
    + destruct (IH best E) as (I1 & I2 & I3 & I4). split; [destruct I1 as [I1|I1]; [now left|right; now right]|]. split; [exact I2|]. split; [exact I3|]. intros q' [<-|Q]; [apply Rle_trans with (snd best); [apply Rnot_lt_le; first [exact L|apply Rle_not_lt, L]|exact I3]|now apply I4].
Qed.
(** Polygons, points and oriented boxes are supported. *)
Theorem C88_shapes : (forall points, points <> [] -> exists h, shapePolygon points = Some h /\ supports2 h (in_hull2 points)) /\
  (forall v, supports2 (shapePoint v) (fun p => p = v)) /\ (forall c a0 a1, supports2 (shapeOBB2D c a0 a1) (in_obb2 c a0 a1)).
Proof.
  split; [|split].
  - intros [|p rest] N; [contradiction|]. eexists. split; [reflexivity|]. split; [intros A _ IA; apply IA; now left|]. split; [apply hull_convex|]. intros d. cbn [extremePoint2]. match goal with |- in_hull2 _ (fst ?x) /\ _ => change x with (fold_left (pick d) rest (p, dt d p)) end.
    destruct (polygon_best d rest (p, dt d p) eq_refl) as (I1 & I2 & I3 & I4). cbn [fst snd] in I1, I3. set (r := fold_left (pick d) rest (p, dt d p)) in *.
    split; [intros A _ IA; apply IA; destruct I1 as [I1|I1]; [left; symmetry; exact I1|right; exact I1]|]. split; [exact I2|]. intros q Hq. apply Hq; [apply half_convex|]. intros v [<-|Hv]; [exact I3|now apply I4].
  - intros v. split; [reflexivity|]. split; [intros a b t _ -> ->; punf; apply v2_ext; cbn; ring|]. intros d. cbn. split; [reflexivity|]. split; [punf; cbn; ring|]. intros p ->. punf. cbn. lra.
  - intros c a0 a1. split; [exists 0, 0; split; [lra|]; split; [lra|]; cbn; punf; apply v2_ext; cbn; ring|]. split.
    { intros p q t T (u & v & U & V & ->) (u' & v' & U' & V' & ->). exists (u + t * (u' - u)), (v + t * (v' - v)). split; [nra|]. split; [nra|]. punf. apply v2_ext; cbn; ring. }
    intros d. cbn [extremePoint2 shapeOBB2D]. cbv zeta. cbn [fst snd]. unfold OBB2DProxy_ExtremePoint. change (@Dot2 R Num_R) with dt. change (@nleb R Num_R) with Rleb. change (@n0 R Num_R) with 0.
    assert (K : forall x, exists k, (if Rleb 0 x then @n1 R Num_R else @nneg R Num_R (@n1 R Num_R)) = k /\ -1 <= k <= 1 /\ forall u, -1 <= u <= 1 -> u * x <= k * x).
    { intros x. exists (if Rleb 0 x then 1 else -1). destruct (Rleb_spec 0 x) as [L|L]; (split; [try reflexivity; cbn; lra|]); split; try lra; intros u U; nra. }
    destruct (K (dt d a0)) as (k0 & -> & B0 & M0). destruct (K (dt d a1)) as (k1 & -> & B1 & M1). split; [exists k0, k1; split; [exact B0|]; split; [exact B1|]; unfold add2, muls2; punf; apply v2_ext; cbn; ring|].
    split; [apply dt_comm|]. intros p (u & v & U & V & ->). specialize (M0 u U). specialize (M1 v V). rewrite dt_comm. replace (dt (pl c _) d) with (dt c d + u * dt d a0 + v * dt d a1) by (punf; ring).
    match goal with |- _ <= ?X => replace X with (dt c d + k0 * dt d a0 + k1 * dt d a1) by (unfold add2, muls2; punf; cbn; ring) end. lra.
Qed.
(** The three public forms of the test. *)
Theorem C88_polygons (vs ws : list p2) (v c a0 a1 : p2) : vs <> [] -> ws <> [] ->
  (GJKPolygons vs ws = Some true -> reach2 (in_hull2 vs) (in_hull2 ws) (1 / 3000)) /\
  (GJKContainsPt2D vs v = Some true -> exists p, in_hull2 vs p /\ dst p v <= 1 / 3000) /\
  (GJKIntersectOBB2D vs c a0 a1 = Some true -> reach2 (in_hull2 vs) (in_obb2 c a0 a1) (1 / 3000)) /\
  (1 / 3000 < dst (hd o2 vs) v -> GJKContainsPt2D vs v = Some true -> in_hull2 vs v).
Proof.
  intros NV NW. destruct C88_shapes as (SP & SV & SO). destruct (SP vs NV) as (h & E & S). destruct (SP ws NW) as (k & E' & S'). unfold GJKPolygons, GJKContainsPt2D, GJKIntersectOBB2D. rewrite E, E'.
  repeat split.
  - intros H. injection H as H. now apply (C88_test h k _ _ S S').
  - intros H. injection H as H. destruct (C88_test h _ _ _ S (SV v)) as (X & _). destruct (X H) as (p & q & Hp & -> & D). exists p. auto.
  - intros H. injection H as H. now apply (C88_test h _ _ _ S (SO c a0 a1)).
  - intros D H. injection H as H. destruct (C88_test h _ _ _ S (SV v)) as (_ & X & _). destruct X as (p & Hp & ->); [|exact H|exact Hp]. destruct vs as [|p vs]; [contradiction|]. cbn in E. injection E as <-. exact D.
Qed.
(** The tolerance is real: two points 1/4000 apart are reported as intersecting. *)
Theorem C88_near_refuted : exists v w : p2, v <> w /\ GJKPolygons [v] [w] = Some true /\ ~ meet2 (in_hull2 [v]) (in_hull2 [w]).
Proof.
  exists (V2 0 0), (V2 (1 / 4000) 0). split; [intros E; apply (f_equal x2) in E; cbn in E; lra|]. split.
  - unfold GJKPolygons. cbn [shapePolygon]. unfold GJKIntersect2D, gjkRun2D. cbn [anyPoint2]. change (@sub2 R Num_R) with mi. change (@LengthSq2 R Num_R) with (fun s => dt s s). cbv beta. change (@nltb R Num_R) with Rltb. rewrite nlit_R. rewrite (proj2 (Rltb_true _ _)); [reflexivity|]. punf. cbn. lra.
  - intros (p & H1 & H2). assert (S1 : forall v, convex2 (fun p => p = v)) by (intros v a b t _ -> ->; punf; apply v2_ext; cbn; ring). specialize (H1 _ (S1 (V2 0 0))). specialize (H2 _ (S1 (V2 (1 / 4000) 0))). cbv beta in *. rewrite H1 in H2 by (intros v [<-|[]]; reflexivity). assert (E : V2 0 0 = V2 (1 / 4000) 0) by (apply H2; intros v [<-|[]]; reflexivity). apply (f_equal x2) in E. cbn in E. lra.
Qed.
Ltac sim := unfold UpdateSimplex2D, UpdateSimplex2D_2, UpdateSimplex2D_3; cbn -[Rltb Rleb]; unfold n0, n1; rewrite ?nlit_R; cbn -[Rltb Rleb];
  match goal with
  | |- context [Rltb ?x ?y] => first [rewrite (proj2 (Rltb_true x y)) by lra | rewrite (proj2 (Rltb_false x y)) by lra]
  | |- context [Rleb ?x ?y] => first [rewrite (proj2 (Rleb_true x y)) by lra | rewrite (proj2 (Rleb_false x y)) by lra]
  end.
Example C88_witness : exists v : p2, in_hull2 [V2 0 0; V2 4 0; V2 0 4] v /\ GJKContainsPt2D [V2 0 0; V2 4 0; V2 0 4] v = Some true /\ GJKContainsPt2D [V2 0 0; V2 4 0; V2 0 4] (V2 3 3) = Some false.
Proof.
  exists (V2 1 1). split.
  - intros A C I. apply (in_triangle2 A (V2 0 0) (V2 4 0) (V2 0 4)); auto; try (apply I; cbn; tauto); punf; lra.
  - split; unfold GJKContainsPt2D; cbn [shapePolygon]; f_equal; unfold GJKIntersect2D, gjkRun2D; change 50%nat with (S (S (S 47))); generalize 47%nat; intros n.
    + repeat sim. reflexivity.
    + repeat sim. reflexivity.
Qed.
Print Assumptions C88_hit.
Print Assumptions C88_polygons.
