(** C86: plane-bounded volumes (PBVolume). *)
From Coq Require Import Reals Psatz List Bool Permutation.
From Verif Require Import Num NumR ScalarModel ScalarProofs Vec3Model GeoTypes GeoSpec GeoLemmas Vec3Props AabbModel AabbSpec AabbProofs PlaneModel PlaneSpec PlaneProps Vec2Model FrustumModel FrustumSpec FrustumProps FrustumProps4.
Import ListNotations.
Open Scope R_scope.
Ltac Zify.zify_post_hook ::= idtac.

(** The volume: the points not above any of the planes. *)
Definition in_volume (V : list (plane R)) (p : pt) : Prop := forall P, In P V -> height P p <= 0.

Theorem C86_contains (V W : list (plane R)) (p : pt) :
  (PBVolume_Contains V p = true <-> in_volume V p) /\ (in_volume (PBVolume_SetIntersection V W) p <-> in_volume V p /\ in_volume W p) /\
  PBVolume_Contains (PBVolume_SetIntersection V W) p = PBVolume_Contains (PBVolume_SetIntersection W V) p.
Proof.
  assert (C : forall V, PBVolume_Contains V p = true <-> in_volume V p).
  { intros U. unfold PBVolume_Contains, in_volume. rewrite forallb_forall. split; intros H P I; specialize (H P I); revert H; change (Plane_SignedDistance P p) with (height P p); change (nltb n0 (height P p)) with (Rltb 0 (height P p)); [rewrite negb_true_iff, Rltb_false; lra|intros; rewrite negb_true_iff, Rltb_false; lra]. }
  assert (I : forall V W, in_volume (PBVolume_SetIntersection V W) p <-> in_volume V p /\ in_volume W p).
  { intros U X. unfold in_volume, PBVolume_SetIntersection. split; [intros H; split; intros P Q; apply H, in_or_app; auto|]. intros (A & B) P Q. apply in_app_or in Q as [Q|Q]; auto. }
  split; [apply C|]. split; [apply I|]. apply eq_true_iff_eq. rewrite !C, !I. tauto.
Qed.
Print Assumptions C86_contains.

(** The loop over the planes. *)
Lemma pb_loop_R (near far : plane R -> bool) : forall V r,
  match pb_loop near far V r with
  | TestOutside => r = TestOutside \/ exists P, In P V /\ near P = true
  | TestInside => r = TestInside /\ forall P, In P V -> near P = false /\ far P = false
  | TestNotContained => (forall P, In P V -> near P = false) /\ (r = TestNotContained \/ exists P, In P V /\ far P = true)
  end.
Proof.
  induction V as [|P V IH]; intros r; cbn [pb_loop].
  - destruct r; [now left|split; [intros ? []|now left]|split; [reflexivity|intros ? []]].
  - destruct (near P) eqn:N; [right; exists P; split; [now left|exact N]|]. specialize (IH (if far P then TestNotContained else r)). destruct (pb_loop near far V _).
    + destruct IH as [E|(Q & I & NQ)]; [destruct (far P); [discriminate|now left]|]. right. exists Q. split; [now right|exact NQ].
    + destruct IH as (A & B). split; [intros Q [<-|I]; auto|]. destruct (far P) eqn:F; [right; exists P; split; [now left|exact F]|]. destruct B as [B|(Q & I & FQ)]; [now left|]. right. exists Q. split; [now right|exact FQ].
    + destruct IH as (E & A). destruct (far P) eqn:F; [discriminate|]. split; [exact E|]. intros Q [<-|I]; auto.
Qed.
(** What the three results say about a body: some plane has all of the body on or beyond it; the body is strictly below all planes; or neither. *)
Definition cull_correct (V : list (plane R)) (body : pt -> Prop) (r : cullTestResult) : Prop :=
  match r with
  | TestOutside => exists P, In P V /\ forall p, body p -> 0 <= height P p
  | TestInside => forall P p, In P V -> body p -> height P p < 0
  | TestNotContained => (forall P, In P V -> exists p, body p /\ height P p < 0) /\ exists P p, In P V /\ body p /\ 0 <= height P p
  end.
Lemma pb_loop_correct (near far : plane R -> bool) (body : pt -> Prop) V :
  (forall P, In P V -> if near P then forall p, body p -> 0 <= height P p else exists p, body p /\ height P p < 0) ->
  (forall P, In P V -> if far P then exists p, body p /\ 0 <= height P p else forall p, body p -> height P p < 0) ->
  cull_correct V body (pb_loop near far V TestInside).
Proof.
  intros N F. pose proof (pb_loop_R near far V TestInside) as L. destruct (pb_loop near far V TestInside); cbn [cull_correct].
  - destruct L as [E|(P & I & NP)]; [discriminate|]. exists P. split; [exact I|]. specialize (N P I). now rewrite NP in N.
  - destruct L as (A & [E|(P & I & FP)]); [discriminate|]. split; [intros P' I'; specialize (N P' I'); now rewrite (A P' I') in N|]. specialize (F P I). rewrite FP in F. destruct F as (p & B & H). exists P, p. auto.
  - destruct L as (_ & L). intros P p I B. specialize (F P I). rewrite (proj2 (L P I)) in F. auto.
Qed.
(** The corners chosen are extreme along the normal. *)
Lemma corners_extreme (P : plane R) (b : aabb R) : box_ok b ->
  in_box b (pb_nPoint P b) /\ in_box b (pb_pPoint P b) /\ forall p, in_box b p -> height P (pb_nPoint P b) <= height P p <= height P (pb_pPoint P b).
Proof.
  intros (X & Y & Z). destruct P as [[a c e] d], b as [[l0 l1 l2] [h0 h1 h2]]. unfold pb_nPoint, pb_pPoint, in_box, height, dot in *. cbn [minPoint maxPoint pnormal pd vx vy vz] in *.
  change (@nltb R Num_R) with Rltb. change (@nleb R Num_R) with Rleb. change (@n0 R Num_R) with 0.
  assert (K : forall u lo hi, lo <= hi -> (let m := if Rltb u 0 then hi else lo in let M := if Rleb 0 u then hi else lo in lo <= m <= hi /\ lo <= M <= hi /\ forall x, lo <= x <= hi -> u * m <= u * x <= u * M)).
  { intros u lo hi L. destruct (Rltb_spec u 0), (Rleb_spec 0 u); try lra; cbv zeta; (split; [lra|]; split; [lra|]); intros x Hx; split; nra. }
  destruct (K a l0 h0 X) as (A1 & A2 & A3), (K c l1 h1 Y) as (B1 & B2 & B3), (K e l2 h2 Z) as (C1 & C2 & C3). cbv zeta in *. split; [repeat split; tauto|]. split; [repeat split; tauto|].
  intros p (H0 & H1 & H2). specialize (A3 _ H0). specialize (B3 _ H1). specialize (C3 _ H2). lra.
Qed.
Theorem C86_aabb (V : list (plane R)) (b : aabb R) : box_ok b ->
  cull_correct V (in_box b) (PBVolume_InsideOrIntersectsAABB V b).
Proof.
  intros BO. unfold PBVolume_InsideOrIntersectsAABB. apply pb_loop_correct; intros P _; destruct (corners_extreme P b BO) as (N & M & E); change (@Plane_SignedDistance R Num_R) with height; change (@nleb R Num_R) with Rleb; change (@n0 R Num_R) with 0.
  - destruct (Rleb_spec 0 (height P (pb_nPoint P b))) as [L|L]; [intros p B; specialize (E p B); lra|]. exists (pb_nPoint P b). split; [exact N|lra].
  - destruct (Rleb_spec 0 (height P (pb_pPoint P b))) as [L|L]; [exists (pb_pPoint P b); split; [exact M|lra]|]. intros p B. specialize (E p B). lra.
Qed.
Print Assumptions C86_aabb.
Theorem C86_sphere (V : list (plane R)) (s : sphere R) : 0 <= srad s -> (forall P, In P V -> unitv (pnormal P)) -> cull_correct V (in_sphere s) (PBVolume_InsideOrIntersectsSphere V s).
Proof.
  intros S U. unfold PBVolume_InsideOrIntersectsSphere.
  assert (B : forall P, In P V -> forall p, in_sphere s p -> height P (spos s) - srad s <= height P p <= height P (spos s) + srad s).
  { intros P I p B. specialize (U P I). unfold height. assert (C : Rabs (dot (pnormal P) (minus p (spos s))) <= srad s).
    { eapply Rle_trans; [apply cauchy|]. unfold norm at 1. rewrite U, sqrt_1, Rmult_1_l. unfold in_sphere in B. rewrite dist_sym in B. exact B. }
    rewrite dot_minus_r in C. pose proof (Rle_abs (dot (pnormal P) p - dot (pnormal P) (spos s))). pose proof (Rle_abs (- (dot (pnormal P) p - dot (pnormal P) (spos s)))). rewrite Rabs_Ropp in *. lra. }
  assert (X : forall P k, In P V -> Rabs k = srad s -> in_sphere s (plus (spos s) (scale k (pnormal P))) /\ height P (plus (spos s) (scale k (pnormal P))) = height P (spos s) + k).
  { intros P k I K. specialize (U P I). split.
    - unfold in_sphere. rewrite dist_sym. unfold dist. replace (minus (plus (spos s) (scale k (pnormal P))) (spos s)) with (scale k (pnormal P)) by (apply vec_ext; unfold minus, plus, scale; cbn [vx vy vz]; ring). rewrite norm_scale, K. unfold norm. rewrite U, sqrt_1. lra.
    - unfold height. rewrite dot_plus_r, dot_scale_r. unfold unitv in U. rewrite U. ring. }
  apply pb_loop_correct; intros P I; change (@Plane_SignedDistance R Num_R) with height; change (@nleb R Num_R) with Rleb; change (nneg (srad s)) with (- srad s).
  - destruct (Rleb_spec (srad s) (height P (spos s))) as [L|L]; [intros p Hp; specialize (B P I p Hp); lra|]. destruct (X P (- srad s) I) as (X1 & X2); [rewrite Rabs_Ropp; apply Rabs_right; lra|]. eexists. split; [exact X1|]. rewrite X2. lra.
  - destruct (Rleb_spec (- srad s) (height P (spos s))) as [L|L]; [|intros p Hp; specialize (B P I p Hp); lra]. destruct (X P (srad s) I) as (X1 & X2); [apply Rabs_right; lra|]. eexists. split; [exact X1|]. rewrite X2. lra.
Qed.
Print Assumptions C86_sphere.
(** For the planes of a frustum: a box or ball reported outside has no point strictly inside the frustum, and one reported inside lies in it. *)
Theorem C86_frustum (f : frustum R) : frustum_ok f ->
  (forall b, box_ok b ->
     match PBVolume_InsideOrIntersectsAABB (Frustum_ToPBVolume f) b with
     | TestOutside => forall p, in_box b p -> ~ (forall P, In P (Frustum_ToPBVolume f) -> height P p < 0)
     | TestInside => forall p, in_box b p -> in_frustum f p
     | TestNotContained => exists p, in_box b p /\ ~ (forall P, In P (Frustum_ToPBVolume f) -> height P p < 0)
     end) /\
  (forall s, 0 <= srad s ->
     match PBVolume_InsideOrIntersectsSphere (Frustum_ToPBVolume f) s with
     | TestOutside => forall p, in_sphere s p -> ~ (forall P, In P (Frustum_ToPBVolume f) -> height P p < 0)
     | TestInside => forall p, in_sphere s p -> in_frustum f p
     | TestNotContained => exists p, in_sphere s p /\ ~ (forall P, In P (Frustum_ToPBVolume f) -> height P p < 0)
     end).
Proof.
  intros K. destruct (C84_planes f K) as (U & R6 & _ & _ & _ & _ & _ & _ & _ & PC).
  assert (G : forall body r, cull_correct (Frustum_ToPBVolume f) body r -> match r with
     | TestOutside => forall p, body p -> ~ (forall P, In P (Frustum_ToPBVolume f) -> height P p < 0)
     | TestInside => forall p, body p -> in_frustum f p
     | TestNotContained => exists p, body p /\ ~ (forall P, In P (Frustum_ToPBVolume f) -> height P p < 0) end).
  { intros body [] C; cbn [cull_correct] in C.
    - destruct C as (P & I & H). intros p B A. specialize (A P I). specialize (H p B). lra.
    - destruct C as (_ & P & p & I & B & H). exists p. split; [exact B|]. intros A. specialize (A P I). lra.
    - intros p B. apply PC, C86_contains; [exact []|]. intros P I. specialize (C P p I B). lra. }
  split; [intros b BO; now apply G, C86_aabb|]. intros s S. apply G, C86_sphere; [exact S|]. intros P I. cbn [Frustum_ToPBVolume In] in I.
  destruct I as [<-|[<-|[<-|[<-|[<-|[<-|[]]]]]]]; [apply (U 0%nat)|apply (U 2%nat)|apply (U 3%nat)|apply (U 4%nat)|apply (U 5%nat)|apply (U 1%nat)]; repeat constructor.
Qed.
Print Assumptions C86_frustum.
(** The unit cube as a volume, with boxes of each kind. *)
Definition unit_cube : list (plane R) := [Pln (V3 1 0 0) 1; Pln (V3 (-1) 0 0) 0; Pln (V3 0 1 0) 1; Pln (V3 0 (-1) 0) 0; Pln (V3 0 0 1) 1; Pln (V3 0 0 (-1)) 0].
Example C86_witness : in_volume unit_cube (V3 (1/2) 1 0) /\ ~ in_volume unit_cube (V3 (1/2) 2 0) /\ frustum_ok (camera PerspectiveFrustum FrustumSpaceGL FrustumRightHanded) /\
  cull_correct unit_cube (in_box (Box (V3 (1/4) (1/4) (1/4)) (V3 (1/2) (1/2) (1/2)))) TestInside /\ cull_correct unit_cube (in_box (Box (V3 2 0 0) (V3 3 1 1))) TestOutside /\ ~ cull_correct unit_cube (in_box (Box (V3 2 0 0) (V3 3 1 1))) TestInside.
Proof.
  split; [intros P I; cbn in I; destruct I as [<-|[<-|[<-|[<-|[<-|[<-|[]]]]]]]; unfold height, dot; cbn; lra|]. split; [intros H; specialize (H (Pln (V3 0 1 0) 1)); unfold height, dot in H; cbn in H; assert (0 * (1 / 2) + 1 * 2 + 0 * 0 - 1 <= 0) by (apply H; auto); lra|].
  split; [apply camera_ok|]. split; [|split].
  - intros P p I (A & B & C). cbn in *. destruct I as [<-|[<-|[<-|[<-|[<-|[<-|[]]]]]]]; unfold height, dot; cbn; lra.
  - exists (Pln (V3 1 0 0) 1). split; [now left|]. intros p (A & B & C). cbn in *. unfold height, dot. cbn. lra.
  - intros H. assert (X : height (Pln (V3 1 0 0) 1) (V3 2 0 0) < 0) by (apply H; [now left|]; unfold in_box; cbn; lra). unfold height, dot in X. cbn in X. lra.
Qed.
