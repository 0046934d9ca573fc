(** C87: the GJK test. *)
From Coq Require Import Reals Psatz List Bool Classical.
From Verif Require Import Num NumR ScalarModel ScalarProofs Vec3Model GeoTypes GeoSpec GeoLemmas Vec3Props MatProofs MatProofs2 AabbModel AabbSpec AabbProofs AabbProps2 LineModel LineProps SphereModel SphereSpec SphereProps SphereProps2 TriangleModel TriangleSpec TriangleProps7 PlaneProps PlaneProps2 ObbModel ObbProps CapsuleModel CapsuleProps CapsuleProps2 CapsuleProps3 RotModel FrustumModel FrustumSpec FrustumProps2 FrustumProps4 GjkModel GjkSpec GjkProofs.
Import ListNotations.
Open Scope R_scope.
Ltac Zify.zify_post_hook ::= idtac.

Lemma difference_convex A B : convex A -> convex B -> convex (difference A B).
Proof.
  intros CA CB x y k (a & b & Ha & Hb & ->) (a' & b' & Ha' & Hb' & ->) K. exists (plus a (scale k (minus a' a))), (plus b (scale k (minus b' b))). split; [now apply CA|]. split; [now apply CB|].
  unfold plus, minus, scale. apply vec_ext; cbn [vx vy vz]; ring.
Qed.
Lemma near_reach A B r : near (difference A B) r <-> within_reach A B r.
Proof. split; [intros (m & (a & b & Ha & Hb & ->) & H); exists a, b; auto|intros (a & b & Ha & Hb & H); exists (minus a b); split; [exists a, b; auto|exact H]]. Qed.
Lemma origin_meet A B : difference A B origin <-> meet A B.
Proof.
  split.
  - intros (a & b & Ha & Hb & E). exists a. split; [exact Ha|]. replace a with b; [exact Hb|]. unfold origin, minus in E. apply vec_ext; [apply (f_equal vx) in E|apply (f_equal vy) in E|apply (f_equal vz) in E]; cbn [vx vy vz] in E; lra.
  - intros (p & Ha & Hb). exists p, p. split; [exact Ha|]. split; [exact Hb|]. unfold origin, minus. apply vec_ext; cbn [vx vy vz]; ring.
Qed.
Lemma vneg_scale (d : pt) : vneg d = scale (-1) d.
Proof. unfold vneg, scale. apply vec_ext; cbn; ring. Qed.
Lemma near_mono M r r' : r <= r' -> near M r -> near M r'.
Proof. intros H (m & I & N). exists m. split; [exact I|lra]. Qed.

Section Loop.
  Context (a b : shape R) (A B : pt -> Prop) (HA : supports a A) (HB : supports b B).
  Lemma loop_miss n : forall S d, gjkLoop a b n S d = Miss -> ~ meet A B.
  Proof.
    destruct HA as (_ & _ & SA & EA). destruct HB as (_ & _ & SB & EB).
    induction n as [|n IH]; intros S d; cbn [gjkLoop]; [discriminate|]. pose proof (SA d) as SA'. pose proof (SB (vneg d)) as SB'. pose proof (EA d) as EA'. pose proof (EB (vneg d)) as EB'.
    destruct (extremePoint a d) as (pa & maxS). destruct (extremePoint b (vneg d)) as (pb & minS). cbn [fst snd] in *. change (@nadd R Num_R minS maxS) with (minS + maxS). change (@nltb R Num_R (minS + maxS) n0) with (Rltb (minS + maxS) 0).
    destruct (Rltb_spec (minS + maxS) 0) as [L|L].
    - intros _ (p & Pa & Pb). rewrite vneg_scale in *. destruct (classic (d = origin)) as [Z|Z].
      + subst d. rewrite SA', SB', dot_scale_l in L. unfold dot, origin in L. cbn in L. lra.
      + destruct (EA' Z) as (_ & X). assert (Z' : scale (-1) d <> origin) by (intros E; apply Z; rewrite <- (scale_1 d); replace 1 with (-1 * -1) by ring; rewrite <- scale_scale, E; unfold scale, origin; apply vec_ext; cbn [vx vy vz]; ring). destruct (EB' Z') as (_ & Y). specialize (X p Pa). specialize (Y p Pb). rewrite dot_scale_l in Y. lra.
    - destruct (UpdateSimplex S (vsub pa pb)) as [(S' & d')|]; [apply IH|discriminate].
  Qed.
  Let M := difference A B.
  Context (NM : ~ M origin).
  Lemma loop_hit n : forall S d, good M S d -> gjkLoop a b n S d = Hit ->
    match S with S1 s0 => near M (43 / 1000) /\ (1 <= dot s0 s0 -> near M (1 / 1000)) | _ => near M (1 / 1000) end.
  Proof.
    assert (MC : convex M) by (apply difference_convex; [apply HA|apply HB]).
    destruct HA as (_ & _ & SA & EA). destruct HB as (_ & _ & SB & EB).
    induction n as [|n IH]; intros S d G; cbn [gjkLoop]; [discriminate|]. assert (Z : d <> origin) by apply G. pose proof (SA d) as SA'. pose proof (SB (vneg d)) as SB'. pose proof (EA d Z) as (EA' & _). assert (Z' : vneg d <> origin) by (rewrite vneg_scale; intros E; apply Z; rewrite <- (scale_1 d); replace 1 with (-1 * -1) by ring; rewrite <- scale_scale, E; unfold scale, origin; apply vec_ext; cbn [vx vy vz]; ring). pose proof (EB _ Z') as (EB' & _).
    destruct (extremePoint a d) as (pa & maxS). destruct (extremePoint b (vneg d)) as (pb & minS). cbn [fst snd] in *. change (@nadd R Num_R minS maxS) with (minS + maxS). change (@nltb R Num_R (minS + maxS) n0) with (Rltb (minS + maxS) 0).
    destruct (Rltb_spec (minS + maxS) 0) as [L|L]; [discriminate|]. set (p := vsub pa pb). assert (MP : M p) by (exists pa, pb; auto).
    assert (DP : 0 <= dot d p) by (unfold p; change (@vsub R Num_R pa pb) with (minus pa pb); rewrite dot_minus_r; rewrite vneg_scale, dot_scale_l in SB'; lra).
    assert (STEP : forall r o, after M r o -> 1 / 1000 <= r -> match o with None => Hit | Some (S', d') => gjkLoop a b n S' d' end = Hit -> (forall s, match o with Some (S1 s', _) => s' <> s | _ => True end) -> near M r).
    { intros r [(S' & d')|] AF RR H NS; [|exact AF]. specialize (IH S' d' AF H). destruct S' as [s|s s'|s s' s'']; [exfalso; now apply (NS s)|apply (near_mono M (1 / 1000)); assumption|apply (near_mono M (1 / 1000)); assumption]. }
    intros H. destruct S as [s0|s0 s1|s0 s1 s2]; cbn [UpdateSimplex] in H.
    - destruct (update2 M MC NM s0 d p G MP DP) as (U1 & U2). assert (NS : forall s, match UpdateSimplex2 s0 p with Some (S1 s', _) => s' <> s | _ => True end) by (intros s; unfold UpdateSimplex2; cbv zeta; now destruct (nltb _ _)). split; [|intros K]; (eapply STEP; [|lra|exact H|exact NS]); auto.
    - eapply STEP; [apply (update3 M MC NM s0 s1 d p G MP DP)|lra|exact H|]. intros s. unfold UpdateSimplex3. cbv zeta. repeat (match goal with |- context [if ?c then _ else _] => destruct c end; [exact I|]); exact I || (repeat match goal with |- context [if ?c then _ else _] => destruct c end; exact I).
    - eapply STEP; [apply (update4 M MC NM s0 s1 s2 d p G MP DP)|lra|exact H|]. intros s. unfold UpdateSimplex4. cbv zeta. repeat (match goal with |- context [if ?c then _ else _] => destruct c end; [exact I|]); exact I.
  Qed.
End Loop.

(** A negative answer with a separating direction is right: the bodies have no common point. *)
Theorem C87_miss (a b : shape R) (A B : pt -> Prop) : supports a A -> supports b B -> gjkRun a b = Miss -> ~ meet A B.
Proof. intros HA HB. unfold gjkRun. destruct (nltb _ _); [discriminate|]. now apply loop_miss. Qed.
(** A positive answer: the bodies meet or come closer than 0.043; if the starting points are at least one unit apart, closer than 0.001. *)
Theorem C87_hit (a b : shape R) (A B : pt -> Prop) : supports a A -> supports b B -> gjkRun a b = Hit ->
  within_reach A B (43 / 1000) /\ (1 <= dist (anyPoint a) (anyPoint b) -> within_reach A B (1 / 1000)).
Proof.
  intros HA HB. rewrite <- !near_reach. set (M := difference A B). assert (M0 : M (minus (anyPoint a) (anyPoint b))) by (exists (anyPoint a), (anyPoint b); split; [apply HA|split; [apply HB|reflexivity]]).
  assert (TRIV : M origin -> forall r, 0 <= r -> near M r) by (intros O r H; exists origin; split; [exact O|]; unfold norm, dot, origin; cbn; replace (0 * 0 + 0 * 0 + 0 * 0) with 0 by ring; rewrite sqrt_0; exact H).
  destruct (classic (M origin)) as [O|NO]; [intros _; split; [apply TRIV; [exact O|lra]|intros _; apply TRIV; [exact O|lra]]|].
  unfold gjkRun. rewrite LengthSq_R. change (@vsub R Num_R) with minus. set (s0 := minus (anyPoint a) (anyPoint b)) in *. change (@nltb R Num_R) with Rltb. rewrite nlit_R. destruct (Rltb_spec (dot s0 s0) (IZR 1 / IZR (Z.pos 10000000))) as [L|L].
  - intros _. assert (N : near M (1 / 1000)) by (exists s0; split; [exact M0|]; apply norm_sq_le; cbn in L |- *; lra). split; [apply (near_mono M (1 / 1000)); [lra|exact N]|intros _; exact N].
  - intros H. assert (G : good M (S1 s0) (vneg s0)).
    { split; [|intros p [<-|[]]; exact M0]. rewrite vneg_scale. split; [|reflexivity]. intros Z. apply NO. replace origin with s0; [exact M0|]. rewrite <- (scale_1 s0); replace 1 with (-1 * -1) by ring; rewrite <- scale_scale, Z; unfold scale, origin; apply vec_ext; cbn [vx vy vz]; ring. }
    pose proof (loop_hit a b A B HA HB NO 50 (S1 s0) _ G H) as (X & Y). split; [exact X|]. intros D. apply Y. unfold dist in D. fold s0 in D. unfold norm in D. destruct (Rle_or_lt 1 (dot s0 s0)) as [K|K]; [exact K|]. pose proof (dot_pos s0). assert (sqrt (dot s0 s0) < sqrt 1) by (apply sqrt_lt_1; lra). rewrite sqrt_1 in *. lra.
Qed.
(** The Boolean test: true and false (unless fifty rounds did not suffice). *)
Theorem C87_test (a b : shape R) (A B : pt -> Prop) : supports a A -> supports b B ->
  (GJKIntersect a b = true -> within_reach A B (43 / 1000)) /\ (GJKIntersect a b = false -> gjkRun a b = GaveUp \/ ~ meet A B) /\
  (~ within_reach A B (43 / 1000) -> GJKIntersect a b = false) /\ (meet A B -> gjkRun a b <> GaveUp -> GJKIntersect a b = true).
Proof.
  intros HA HB. pose proof (C87_miss a b A B HA HB) as MI. pose proof (C87_hit a b A B HA HB) as HI. unfold GJKIntersect. destruct (gjkRun a b).
  - destruct (HI eq_refl) as (X & _). split; [intros _; exact X|]. split; [discriminate|]. split; [intros K; contradiction|reflexivity].
  - specialize (MI eq_refl). split; [discriminate|]. split; [now right|]. split; [reflexivity|]. intros K; contradiction.
  - split; [discriminate|]. split; [now left|]. split; [reflexivity|]. intros _ K. now contradiction K.
Qed.

(** ** The shapes support their bodies *)
Lemma seg_ends s : on_segment s (seg_a s).
Proof. exists 0. split; [lra|]. unfold plus, scale, minus. apply vec_ext; cbn [vx vy vz]; ring. Qed.
Theorem C87_shapes :
  (forall s, supports (shapeSegment s) (on_segment s)) /\ (forall t, supports (shapeTriangle t) (in_triangle t)) /\ (forall b, box_ok b -> supports (shapeAABB b) (in_box b)) /\ (forall o, obb_ok o -> supports (shapeOBB o) (in_obb o)) /\
  (forall s, 0 <= srad s -> supports (shapeSphere s) (in_sphere s)) /\ (forall c, 0 <= cap_r c -> supports (shapeCapsule c) (in_capsule c)) /\ (forall f, frustum_ok f -> supports (shapeFrustum f) (in_frustum f)).
Proof.
  split; [|split; [|split; [|split; [|split; [|split]]]]].
  - intros s. split; [apply seg_ends|]. split; [exact (convex_seg s)|]. cbn [shapeSegment extremePoint]. split; [intros d; destruct (C75_extreme s d _ (seg_ends s)) as (_ & _ & ->); apply dot_comm|].
    intros d _. split; [|intros p P]; [destruct (C75_extreme s d _ (seg_ends s)) as (X & _ & ->)|destruct (C75_extreme s d _ P) as (_ & X & ->)]; cbn [fst snd]; [exact X|]. rewrite dot_comm. exact X.
  - intros t. assert (VT : forall p, vertex_of t p -> in_triangle t p).
    { intros p [ -> |[ -> | -> ]]; [exists 1, 0, 0|exists 0, 1, 0|exists 0, 0, 1]; (repeat split; try lra); unfold plus, scale; apply vec_ext; cbn [vx vy vz]; ring. }
    split; [apply VT; now left|]. split; [exact (convex_tri t)|]. cbn [shapeTriangle extremePoint]. split; [intros d; destruct (C80_extreme t d) as (_ & _ & ->); apply dot_comm|].
    intros d _. destruct (C80_extreme t d) as (X & Y & ->). cbn [fst snd]. split; [now apply VT|]. intros p P. rewrite (dot_comm _ d). now apply Y.
  - intros b K. split; [cbn; unfold in_box, box_ok in *; lra|]. split; [exact (PlaneProps.convex_box b)|]. cbn [shapeAABB extremePoint]. cbv zeta. cbn [fst snd]. change (@Dot R Num_R) with dot. split; [intros d; apply dot_comm|].
    intros d _. destruct (C24_extreme_point b d K) as (X & Y). split; [exact X|]. intros p P. rewrite (dot_comm _ d). now apply Y.
  - intros o K. split; [cbn; exists 0, 0, 0; unfold obb_ok in K; repeat split; try lra; unfold plus, scale; apply vec_ext; cbn [vx vy vz]; ring|]. split; [exact (convex_obb o)|]. cbn [shapeOBB extremePoint]. split; [intros d; destruct (C51_extreme o d K) as (_ & _ & ->); apply dot_comm|].
    intros d _. destruct (C51_extreme o d K) as (X & Y & ->). cbn [fst snd]. split; [exact X|]. intros p P. rewrite (dot_comm _ d). now apply Y.
  - intros s K. assert (C0 : in_sphere s (spos s)) by (unfold in_sphere, dist, norm, dot, minus; cbn [vx vy vz]; replace (_ + _) with 0 by ring; rewrite sqrt_0; exact K).
    split; [exact C0|]. split; [exact (convex_sphere s)|]. cbn [shapeSphere extremePoint]. split; [intros d; unfold Sphere_ExtremePointDist; cbn [fst snd]; apply dot_comm|].
    intros d Z. split; [destruct (C44_extreme s d _ K Z C0) as (X & _ & ->); exact X|]. intros p P. destruct (C44_extreme s d _ K Z P) as (_ & X & ->). exact X.
  - intros c K. split; [exists (seg_a (cap_l c)); split; [apply seg_ends|]; cbn; unfold dist, norm, dot, minus; cbn [vx vy vz]; replace (_ + _) with 0 by ring; rewrite sqrt_0; exact K|]. split; [exact (convex_capsule c)|]. cbn [shapeCapsule extremePoint]. split; [intros d; unfold Capsule_ExtremePointDist; cbn [fst snd]; apply dot_comm|].
    intros d Z. destruct (C50_extreme c d K Z) as (X & Y & ->). cbn [fst snd]. split; [exact X|]. intros p P. rewrite (dot_comm _ d). now apply Y.
  - intros f K. split; [cbn [shapeFrustum anyPoint]; rewrite (CornerPoint_R f 0) by (repeat constructor); now apply corner_in|]. split; [now apply frustum_convex|]. cbn [shapeFrustum extremePoint]. split; [intros d; pose proof (C84_extreme f d K) as X; destruct (Frustum_ExtremePoint f d); apply X|].
    intros d _. pose proof (C84_extreme f d K) as X. destruct (Frustum_ExtremePoint f d) as (e, k). cbn [fst snd]. split; [apply X|]. apply X.
Qed.

(** ** The classes' intersection tests that rest on it *)
(** A true answer: within reach; a false answer: apart, unless the search gave up. *)
Definition answers (r : bool) (o : outcome) (A B : pt -> Prop) : Prop := (r = true -> within_reach A B (43 / 1000)) /\ (r = false -> o = GaveUp \/ ~ meet A B) /\ (o <> GaveUp -> meet A B -> r = true).
Lemma test_answers a b A B : supports a A -> supports b B -> answers (GJKIntersect a b) (gjkRun a b) A B.
Proof. intros HA HB. destruct (C87_test a b A B HA HB) as (X & Y & _ & Z). split; [exact X|]. split; [exact Y|auto]. Qed.
Theorem C87_frustum (f g : frustum R) (s : segment R) (b : aabb R) (o : obb R) (t : triangle R) (x : sphere R) (c : capsule R) : frustum_ok f -> frustum_ok g -> box_ok b -> obb_ok o -> 0 <= srad x -> 0 <= cap_r c ->
  let run h := gjkRun (shapeFrustum f) h in
  answers (Frustum_IntersectsSegment f s) (run (shapeSegment s)) (in_frustum f) (on_segment s) /\ answers (Frustum_IntersectsAABB f b) (run (shapeAABB b)) (in_frustum f) (in_box b) /\
  answers (Frustum_IntersectsOBB f o) (run (shapeOBB o)) (in_frustum f) (in_obb o) /\ answers (Frustum_IntersectsTriangle f t) (run (shapeTriangle t)) (in_frustum f) (in_triangle t) /\
  answers (Frustum_IntersectsSphere f x) (run (shapeSphere x)) (in_frustum f) (in_sphere x) /\ answers (Frustum_IntersectsCapsule f c) (run (shapeCapsule c)) (in_frustum f) (in_capsule c) /\
  answers (Frustum_IntersectsFrustum f g) (run (shapeFrustum g)) (in_frustum f) (in_frustum g).
Proof.
  intros F G B O X C run. destruct C87_shapes as (HS & HT & HB & HO & HX & HC & HF). unfold run. repeat split; apply test_answers; auto.
Qed.
Lemma translate_reach A B A' B' (v : pt) : (forall p, A' p <-> image (fun x => plus x v) A p) -> (forall p, B' p <-> image (fun x => plus x v) B p) ->
  (meet A' B' <-> meet A B) /\ forall r, within_reach A' B' r <-> within_reach A B r.
Proof.
  intros EA EB. assert (DI : forall x y : pt, dist (plus x v) (plus y v) = dist x y) by (intros x y; unfold dist; f_equal; unfold minus, plus; apply vec_ext; cbn [vx vy vz]; ring).
  assert (INJ : forall x y : pt, plus x v = plus y v -> x = y) by (intros x y E; unfold plus in E; apply vec_ext; [apply (f_equal vx) in E|apply (f_equal vy) in E|apply (f_equal vz) in E]; cbn [vx vy vz] in E; lra).
  split.
  - split; [intros (p & Pa & Pb); apply EA in Pa; apply EB in Pb; destruct Pa as (x & Ax & ->); destruct Pb as (y & By & E); apply INJ in E; subst y; now exists x|].
    intros (p & Pa & Pb). exists (plus p v). split; [apply EA|apply EB]; now exists p.
  - intros r. split.
    + intros (p & q & Pa & Pb & D). apply EA in Pa; apply EB in Pb; destruct Pa as (x & Ax & ->); destruct Pb as (y & By & ->). rewrite DI in D. now exists x, y.
    + intros (x & y & Ax & By & D). exists (plus x v), (plus y v). split; [apply EA; now exists x|]. split; [apply EB; now exists y|now rewrite DI].
Qed.
Lemma box_translate (b : aabb R) (v p : pt) : in_box (AABB_Translate b v) p <-> image (fun x => plus x v) (in_box b) p.
Proof.
  assert (E : p = plus (minus p v) v) by (unfold plus, minus; apply vec_ext; cbn [vx vy vz]; ring). split.
  - intros H. exists (minus p v). split; [|exact E]. rewrite E in H. now apply (C25_translate_scale b v p 1 (minus p v) Rlt_0_1) in H.
  - intros (x & Bx & ->). now apply (C25_translate_scale b v x 1 x Rlt_0_1).
Qed.
(** The capsule tests; the box test moves both bodies next to the origin first. *)
Theorem C87_capsule (c : capsule R) (b : aabb R) (o : obb R) : 0 <= cap_r c -> box_ok b -> obb_ok o ->
  answers (Capsule_IntersectsOBB c o) (gjkRun (shapeCapsule c) (shapeOBB o)) (in_capsule c) (in_obb o) /\
  let ab := Capsule_MinimalEnclosingAABB c in let v := vneg (vmuls (vadd (vMin (minPoint ab) (minPoint b)) (vMax (maxPoint ab) (maxPoint b))) nhalf) in
  answers (Capsule_IntersectsAABB c b) (gjkRun (shapeCapsule (Capsule_Translate c v)) (shapeAABB (AABB_Translate b v))) (in_capsule c) (in_box b).
Proof.
  intros C B O. destruct C87_shapes as (HS & HT & HB & HO & HX & HC & HF). split; [apply test_answers; auto|]. intros ab v.
  assert (CT : 0 <= cap_r (Capsule_Translate c v)) by exact C. assert (BT : box_ok (AABB_Translate b v)) by (clearbody v; unfold box_ok, AABB_Translate in *; vunf; cbn [minPoint maxPoint vx vy vz]; lra).
  pose proof (test_answers _ _ _ _ (HC _ CT) (HB _ BT)) as (X & Y & Z).
  destruct (translate_reach (in_capsule c) (in_box b) (in_capsule (Capsule_Translate c v)) (in_box (AABB_Translate b v)) v) as (T1 & T2).
  { apply (C50_transforms c (M34 (M3 v v v) v) (M3 v v v) (Q4 0 0 0 1) v origin 1 Rlt_0_1). }
  { apply box_translate. }
  unfold answers. unfold Capsule_IntersectsAABB. fold ab. cbv zeta. fold v. split; [intros K; apply T2; auto|]. split; [intros K; destruct (Y K) as [K'|K']; [now left|right; now rewrite <- T1]|]. intros K M. apply Z; [exact K|now apply T1].
Qed.
Print Assumptions C87_miss.
Print Assumptions C87_hit.
Print Assumptions C87_test.
Print Assumptions C87_shapes.
Print Assumptions C87_frustum.
Print Assumptions C87_capsule.

(** Small bodies 0.029 apart are reported as intersecting: a capsule of radius 0 (a rod 0.06 long) and a box of half-size 0.001. *)
Definition rod : capsule R := Cap (Seg (V3 (- (3 / 100)) (3 / 100) 0) (V3 (3 / 100) (3 / 100) 0)) 0.
Definition crumb : obb R := Obb (V3 0 0 0) (V3 (1 / 1000) (1 / 1000) (1 / 1000)) (V3 1 0 0) (V3 0 1 0) (V3 0 0 1).
Theorem C87_small_refuted : exists (c : capsule R) (o : obb R), 0 <= cap_r c /\ obb_ok o /\ Capsule_IntersectsOBB c o = true /\ ~ meet (in_capsule c) (in_obb o) /\ ~ within_reach (in_capsule c) (in_obb o) (28 / 1000).
Proof.
  exists rod, crumb. split; [cbn; lra|]. split; [unfold obb_ok; cbn; lra|].
  assert (FAR : ~ within_reach (in_capsule rod) (in_obb crumb) (28 / 1000)).
  { intros (a & b & (q & (k & K & E) & D) & (x & y & z & X & Y & Z & F) & L). assert (YA : vy a = 3 / 100).
    { cbn in D. unfold dist in D. assert (N0 : dot (minus q a) (minus q a) = 0) by (pose proof (dot_pos (minus q a)) as P; destruct P as [P|P]; [|now symmetry]; exfalso; pose proof (sqrt_lt_R0 _ P); unfold norm in D; lra). apply dot_zero in N0. apply (f_equal vy) in N0. unfold minus, origin in N0. cbn [vy] in N0. rewrite E in N0. unfold plus, scale, minus in N0. cbn [rod cap_l seg_a seg_b vx vy vz] in N0. lra. }
    assert (YB : vy b <= 1 / 1000) by (rewrite F; unfold plus, scale; cbn [crumb opos oaxis0 oaxis1 oaxis2 orad vx vy vz] in *; lra).
    unfold dist, norm in L. assert (S : (vy a - vy b) * (vy a - vy b) <= dot (minus a b) (minus a b)) by (unfold dot, minus; cbn [vx vy vz]; pose proof (Rle_0_sqr (vx a - vx b)) as S1; pose proof (Rle_0_sqr (vz a - vz b)) as S2; unfold Rsqr in *; lra). assert (Q : 29 / 1000 * (29 / 1000) <= dot (minus a b) (minus a b)) by (eapply Rle_trans; [|exact S]; apply Rmult_le_compat; lra). apply sqrt_le_1_alt in Q. rewrite sqrt_square in Q by lra. lra. }
  split; [|split; [intros (p & A & B); apply FAR; exists p, p; split; [exact A|]; split; [exact B|]; unfold dist, norm; replace (dot _ _) with 0 by (unfold dot, minus; cbn [vx vy vz]; ring); rewrite sqrt_0; lra|exact FAR]].
  unfold Capsule_IntersectsOBB, GJKIntersect, gjkRun. cbn [gjkLoop].
  assert (S0 : vsub (anyPoint (shapeCapsule rod)) (anyPoint (shapeOBB crumb)) = V3 (- (3 / 100)) (3 / 100) 0) by (unfold vsub; apply vec_ext; cbn; rsimpl; ring). rewrite S0.
  rewrite LengthSq_R. change (@nltb R Num_R) with Rltb. rewrite nlit_R.
  rewrite (proj2 (Rltb_false _ _)) by (unfold dot; cbn; lra).
  assert (D0 : vneg (V3 (- (3 / 100)) (3 / 100) 0) = V3 (3 / 100) (- (3 / 100)) 0) by (unfold vneg; apply vec_ext; cbn; rsimpl; ring). rewrite D0.
  assert (D1 : vneg (V3 (3 / 100) (- (3 / 100)) 0) = V3 (- (3 / 100)) (3 / 100) 0) by (unfold vneg; apply vec_ext; cbn; rsimpl; ring). rewrite D1.
  assert (EA : extremePoint (shapeCapsule rod) (V3 (3 / 100) (- (3 / 100)) 0) = (V3 (3 / 100) (3 / 100) 0, 0)).
  { cbn [shapeCapsule extremePoint]. unfold Capsule_ExtremePointDist. cbv zeta. assert (EP : Capsule_ExtremePoint rod (V3 (3 / 100) (- (3 / 100)) 0) = V3 (3 / 100) (3 / 100) 0).
    { unfold Capsule_ExtremePoint. cbv zeta. change (@Dot R Num_R) with dot. change (@nleb R Num_R) with Rleb. rewrite (proj2 (Rleb_true _ _)) by (unfold dot, vsub; cbn; rsimpl; lra). unfold vadd, vmuls. cbn [rod cap_l cap_r seg_b vx vy vz]. apply vec_ext; cbn [vx vy vz]; rsimpl; unfold Rdiv; ring. }
    rewrite EP. f_equal. change (@Dot R Num_R) with dot. unfold dot. cbn [vx vy vz]. lra. }
  assert (EB : extremePoint (shapeOBB crumb) (V3 (- (3 / 100)) (3 / 100) 0) = (V3 (- (1 / 1000)) (1 / 1000) (1 / 1000), 6 / 100000)).
  { cbn [shapeOBB extremePoint]. assert (OK : obb_ok crumb) by (unfold obb_ok; cbn; lra). destruct (C51_extreme crumb (V3 (- (3 / 100)) (3 / 100) 0) OK) as (_ & _ & ->). assert (EP : OBB_ExtremePoint crumb (V3 (- (3 / 100)) (3 / 100) 0) = V3 (- (1 / 1000)) (1 / 1000) (1 / 1000)).
    { rewrite extreme_R. rewrite (proj2 (Rleb_false _ _)) by (unfold dot; cbn; lra). rewrite !(proj2 (Rleb_true _ _)) by (unfold dot; cbn; lra). unfold at_. cbn [crumb opos oaxis0 oaxis1 oaxis2 orad vx vy vz]. gunf. apply vec_ext; cbn [vx vy vz]; lra. }
    rewrite EP. f_equal. unfold dot. cbn [vx vy vz]. lra. }
  rewrite EA, EB. change (@nadd R Num_R) with Rplus. rewrite (proj2 (Rltb_false _ _)) by (rsimpl; lra).
  cbn [UpdateSimplex]. unfold UpdateSimplex2. cbv zeta. rewrite LengthSq_R. change (@nltb R Num_R) with Rltb. rewrite nlit_R.
  rewrite (proj2 (Rltb_false _ _)) by (change (@Cross R Num_R) with cross; change (@vsub R Num_R) with minus; unfold dot, cross, minus; cbn [vx vy vz]; lra). reflexivity.
Qed.
Print Assumptions C87_small_refuted.

(** Concrete runs: a segment away from a point is missed with a separating direction; two crossing segments are found. *)
Example C87_witness :
  gjkRun (shapeSegment (Seg (V3 (-1) 2 0) (V3 1 2 0))) (shapeSegment (Seg (V3 0 0 0) (V3 0 0 (0 : R)))) = Miss /\
  gjkRun (shapeSegment (Seg (V3 (-1) 0 0) (V3 1 0 0))) (shapeSegment (Seg (V3 0 (-1) 0) (V3 0 1 (0 : R)))) = Hit /\
  frustum_ok (camera PerspectiveFrustum FrustumSpaceGL FrustumRightHanded) /\ 0 <= cap_r rod /\ box_ok (Box (V3 0 0 0 : pt) (V3 1 1 1)) /\ obb_ok crumb.
Proof.
  assert (EXT : forall (a b d : pt) (e : pt), (if Rleb 0 (dot d (minus b a)) then b else a) = e -> extremePoint (shapeSegment (Seg a b)) d = (e, dot e d)) by (intros a b d e <-; reflexivity).
  assert (NEG : forall x y z : R, vneg (V3 x y z) = V3 (- x) (- y) (- z)) by reflexivity.
  split; [|split; [|split; [|split; [cbn; lra|split; [unfold box_ok; cbn; lra|unfold obb_ok; cbn; lra]]]]].
  - unfold gjkRun. cbn [gjkLoop]. assert (S0 : vsub (anyPoint (shapeSegment (Seg (V3 (-1) 2 0) (V3 1 2 0)))) (anyPoint (shapeSegment (Seg (V3 0 0 0) (V3 0 0 0)))) = V3 (-1) 2 0) by (unfold vsub; apply vec_ext; cbn; rsimpl; ring). rewrite S0.
    rewrite LengthSq_R. change (@nltb R Num_R) with Rltb. rewrite nlit_R. rewrite (proj2 (Rltb_false _ _)) by (unfold dot; cbn; lra). rewrite !NEG.
    rewrite (EXT (V3 (-1) 2 0) (V3 1 2 0) _ (V3 1 2 0)) by (rewrite (proj2 (Rleb_true _ _)); [reflexivity|unfold dot, minus; cbn; lra]).
    rewrite (EXT (V3 0 0 0) (V3 0 0 0) _ (V3 0 0 0)) by (now destruct (Rleb _ _)).
    change (@nadd R Num_R) with Rplus. rewrite (proj2 (Rltb_true _ _)) by (unfold dot; cbn [vx vy vz]; rsimpl; lra). reflexivity.
  - unfold gjkRun. cbn [gjkLoop]. assert (S0 : vsub (anyPoint (shapeSegment (Seg (V3 (-1) 0 0) (V3 1 0 0)))) (anyPoint (shapeSegment (Seg (V3 0 (-1) 0) (V3 0 1 0)))) = V3 (-1) 1 0) by (unfold vsub; apply vec_ext; cbn; rsimpl; ring). rewrite S0.
    rewrite LengthSq_R. change (@nltb R Num_R) with Rltb. rewrite nlit_R. rewrite (proj2 (Rltb_false _ _)) by (unfold dot; cbn; lra). rewrite !NEG.
    rewrite (EXT (V3 (-1) 0 0) (V3 1 0 0) _ (V3 1 0 0)) by (rewrite (proj2 (Rleb_true _ _)); [reflexivity|unfold dot, minus; cbn; lra]).
    rewrite (EXT (V3 0 (-1) 0) (V3 0 1 0) _ (V3 0 1 0)) by (rewrite (proj2 (Rleb_true _ _)); [reflexivity|unfold dot, minus; cbn; lra]).
    change (@nadd R Num_R) with Rplus. rewrite (proj2 (Rltb_false _ _)) by (unfold dot; cbn [vx vy vz]; rsimpl; lra).
    cbn [UpdateSimplex]. unfold UpdateSimplex2. cbv zeta. rewrite LengthSq_R. change (@nltb R Num_R) with Rltb. rewrite nlit_R.
    rewrite (proj2 (Rltb_false _ _)) by (change (@Cross R Num_R) with cross; change (@vsub R Num_R) with minus; unfold dot, cross, minus; cbn [vx vy vz]; lra). reflexivity.
  - apply C84_witness.
Qed.
