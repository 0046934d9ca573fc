(** Lemmas about the enclosing boxes of flat point sets. *)
From Coq Require Import Reals Lra Psatz Bool List Lia PeanoNat.
From Verif Require Import Num NumR ScalarModel ScalarProofs Vec2Model Vec2Spec Vec2Props HullModel HullSpec HullProofs HullProofs2 HullProps2 MinRectModel MinRectSpec MinRectProofs MinRectProofs2 MinRectProofs3 MinRectProps
  Vec3Model GeoTypes GeoSpec GeoLemmas Vec3Props AabbSpec AabbProofs MatSpec MatProofs MatProofs2 PlaneProps ObbModel ObbProps ObbProps7 PlanarObbModel.
Import ListNotations.
Open Scope R_scope.
Ltac Zify.zify_post_hook ::= idtac.

(** ** MinAreaRectInPlace on any input *)
Lemma Normalized2_unit (w : p2) : unit2 (Normalized2 w).
Proof.
  unfold Normalized2, Normalize2. change (LengthSq2 w) with (dt w w). cbv zeta. rsimpl. destruct (Rltb_spec (1/1000000) (dt w w)) as [L|L].
  - cbn [fst]. assert (Q : sqrt (dt w w) * sqrt (dt w w) = dt w w) by (apply sqrt_sqrt; lra). assert (P : 0 < sqrt (dt w w)) by (apply sqrt_lt_R0; lra). set (k := sqrt (dt w w)) in *.
    unfold unit2. unfold muls2. rsimpl. replace (dt _ _) with (dt w w / (k * k)) by (unfold dt; cbn [x2 y2]; field; lra). rewrite Q. field. lra.
  - cbn [fst]. unfold unit2, dt. cbn. ring.
Qed.
Lemma step_unit p ed e : unit2 (fst (calStep p ed e)).
Proof. destruct (step_cases p ed e) as (j & _ & _ & R & _). unfold unit2. rewrite <- (rot_dt j), R. apply Normalized2_unit. Qed.
Lemma loop_unit p : forall fuel ed e best r, calLoop fuel p ed e best = Some r -> (forall b, best = Some b -> unit2 (rv b)) -> unit2 (rv r).
Proof.
  induction fuel as [|f IH]; intros ed e best r E B; cbn [calLoop] in E.
  - destruct (nleb (y2 ed) n0); [discriminate|now apply B].
  - destruct (nleb (y2 ed) n0); [|now apply B]. pose proof (step_unit p ed e) as U. destruct (calStep p ed e) as [ed' e']. cbn [fst] in U. apply (IH _ _ _ _ E). intros b Hb. injection Hb as <-.
    assert (UR : unit2 (rv (calRect p ed' e'))) by (destruct e' as [[[a0 a1] a2] a3]; exact U). destruct best as [b0|]; [|exact UR]. unfold calBest. destruct (nltb _ _); [exact UR|now apply B].
Qed.
Lemma rect_orthonormal fuel (l : list p2) r : MinAreaRectInPlace fuel l = Some r -> unit2 (ru r) /\ unit2 (rv r) /\ dt (ru r) (rv r) = 0.
Proof.
  unfold MinAreaRectInPlace. intros E.
  assert (K : forall p, (match calLoop fuel p (V2 n0 (nneg n1)) (calStart p) None with None => None | Some r => Some (calFinish r) end) = Some r -> unit2 (ru r) /\ unit2 (rv r) /\ dt (ru r) (rv r) = 0).
  { intros p H. destruct (calLoop _ _ _ _ _) as [r0|] eqn:C; [|discriminate]. injection H as <-. assert (U : unit2 (rv r0)) by (apply (loop_unit _ _ _ _ _ _ C); discriminate).
    unfold calFinish. cbn [ru rv]. rsimpl. unfold unit2, dt in *. cbn [x2 y2]. split; [lra|]. split; [lra|ring]. }
  destruct (ConvexHullInPlace l) as [|c [|c2 t]]; [discriminate| |now apply (K (c :: c2 :: t))].
  injection E as <-. cbn [ru rv]. unfold unit2, dt. cbn. repeat split; ring.
Qed.
(** Kept neighbours are more than 1e-3 apart, so on a line the search ends whatever the distances. *)
Definition adjfar (l : list p2) : Prop := forall l1 x y l2, l = l1 ++ x :: y :: l2 -> 1 / 1000 < dst x y.
Lemma dedupe_far (hull : list p2) : forall kept, kept <> [] -> adjfar kept -> adjfar (hullDedupe kept hull).
Proof.
  induction hull as [|q hull IH]; intros kept N A; [exact A|]. destruct kept as [|k kept]; [contradiction|]. cbn [hullDedupe].
  destruct (nltb (nlit 1%Z 1000000%positive) (DistSq2D q k)) eqn:F; [|now apply IH]. apply far_R in F. apply IH; [discriminate|].
  intros l1 x y l2 E. destruct l1 as [|z l1]; cbn in E; injection E as E1 E2; [subst; exact F|]. exact (A l1 x y l2 E2).
Qed.
Lemma finish_far h a b : finish h = [a; b] -> 1 / 1000 < dst a b.
Proof.
  destruct h as [|h0 rest]; [discriminate|]. unfold finish. intros E. apply (f_equal (@rev p2)) in E. rewrite rev_involutive in E. cbn [rev app] in E.
  assert (D : adjfar (hullDedupe [h0] rest)) by (apply dedupe_far; [discriminate|]; intros l1 x y l2 X; destruct l1 as [|z [|z' l1]]; discriminate X).
  destruct (dedupe_ok rest [h0] h0 [] eq_refl) as (new & EK & _ & _). rewrite EK in *. destruct (trim_ok h0 (new ++ [h0])) as (gone & G & _ & _); [destruct new; discriminate|apply last_last|].
  rewrite E in G. rewrite dst_sym. exact (D gone b a [] G).
Qed.
Lemma rect_line fuel (l : list p2) : l <> [] -> collinear l -> (8 < fuel)%nat -> exists r, MinAreaRectInPlace fuel l = Some r.
Proof.
  intros N C F. pose proof (C83_line l C) as L. destruct (C83_hull l N) as (H1 & _ & _). unfold MinAreaRectInPlace. pose proof (inplace_R l) as R. destruct (ConvexHullInPlace l) as [|a [|b [|c t]]]; [contradiction|eexists; reflexivity| |cbn in L; lia].
  assert (OK : calok [a; b]) by (apply two_calok; apply (finish_far (hullBoth (lexSort l))); now symmetry). destruct (start_ok _ OK) as [V S].
  destruct (run_ok [a; b] OK fuel (calStart [a; b])) as (r & E & _); [cbn; lia|exact V|exact S|].
  change (V2 n0 (nneg n1)) with (V2 0 (-(1))). replace (V2 0 (-(1))) with (V2 0 (-1)) by reflexivity. rewrite E. eexists. reflexivity.
Qed.

(** ** Plane coordinates *)
Definition prj (u v q : pt) : p2 := V2 (dot u q) (dot v q).
Definition lift (u v : pt) (d : p2) : pt := plus (scale (x2 d) u) (scale (y2 d) v).
Lemma planarPts_R u v (pts : list pt) : planarPts u v pts = map (prj u v) pts. Proof. reflexivity. Qed.
Lemma planarLift_R (u v : pt) d : planarLift u v d = lift u v d. Proof. reflexivity. Qed.
Lemma lift_dot u v d q : dot q (lift u v d) = dt d (prj u v q).
Proof. unfold lift, prj, dt. cbn [x2 y2]. rewrite dot_plus_r, !dot_scale_r, (dot_comm q u), (dot_comm q v). ring. Qed.
(** An orthonormal frame whose last vector is the direction looked along. *)
Definition frame3 (u v m : pt) : Prop := unitv u /\ unitv v /\ unitv m /\ orth m u /\ orth m v /\ orth u v.
Lemma basis_frame m : unitv m -> frame3 (fst (PerpendicularBasis m)) (snd (PerpendicularBasis m)) m.
Proof. intros U. pose proof (C27_perpendicular_basis m U) as B. destruct (PerpendicularBasis m) as [u v]. cbn [fst snd]. destruct B as (A & B & C & D & E & _). unfold frame3. repeat split; assumption. Qed.
Section Frame.
  Variables u v m : pt.
  Hypothesis F : frame3 u v m.
  Lemma lift_lift d d' : dot (lift u v d) (lift u v d') = dt d d'.
  Proof. destruct F as (A & B & _ & _ & _ & C). unfold unitv, orth in *. unfold lift. rewrite !dot_plus_l, !dot_plus_r, !dot_scale_l, !dot_scale_r, A, B, (dot_comm v u), C. unfold dt. ring. Qed.
  Lemma lift_m d : dot m (lift u v d) = 0.
  Proof. destruct F as (_ & _ & _ & A & B & _). unfold orth in *. unfold lift. rewrite dot_plus_r, !dot_scale_r, A, B. ring. Qed.
  (** A vector across m is a lifted one. *)
  Lemma lift_prj a : dot m a = 0 -> lift u v (prj u v a) = a.
  Proof.
    destruct F as (A & B & C & D & E & G). intros Z. unfold lift, prj. cbn [x2 y2]. rewrite (expand u v m a) at 3 by (try assumption; unfold orth in *; rewrite dot_comm; assumption).
    rewrite (dot_comm a m), Z, (dot_comm a u), (dot_comm a v). apply vec_ext; unfold plus, scale; cbn [vx vy vz]; ring.
  Qed.
  Lemma prj_dt a b : dot m a = 0 -> dt (prj u v a) (prj u v b) = dot a b.
  Proof. intros Z. rewrite <- lift_dot, lift_prj by exact Z. apply dot_comm. Qed.
  (** The least rectangle bounds every box with an axis along m. *)
  Lemma box_area r pts a b ca cb ra rb : (forall w, dt w w = 1 -> least_at (rarea r) w (map (prj u v) pts)) -> unitv a -> unitv b -> dot m a = 0 -> dot m b = 0 -> dot a b = 0 ->
    (forall p, In p pts -> ca - ra <= dot p a <= ca + ra /\ cb - rb <= dot p b <= cb + rb) -> rarea r <= 2 * ra * (2 * rb).
  Proof.
    intros L UA UB MA MB AB H. set (w := prj u v a). set (w2 := prj u v b).
    assert (W : dt w w = 1) by (unfold w; rewrite prj_dt by exact MA; exact UA). assert (W2 : dt w2 w2 = 1) by (unfold w2; rewrite prj_dt by exact MB; exact UB).
    assert (O : dt w w2 = 0) by (unfold w, w2; rewrite prj_dt by exact MA; exact AB).
    assert (PA : forall p, dt w (prj u v p) = dot p a) by (intros; unfold w; rewrite prj_dt by exact MA; apply dot_comm).
    assert (PB : forall p, dt w2 (prj u v p) = dot p b) by (intros; unfold w2; rewrite prj_dt by exact MB; apply dot_comm).
    assert (S : w2 = left90 w \/ w2 = left90 (left90 (left90 w))).
    { set (s := area2 w w2). destruct (tb_self w w2 W W2) as [T N]. fold s in T, N. rewrite O in T, N. assert (S2 : s = 1 \/ s = -1) by (assert (Q : (s - 1) * (s + 1) = 0) by lra; destruct (Rmult_integral _ _ Q); [left|right]; lra).
      clearbody s; destruct S2 as [S2|S2]; rewrite S2 in T; [left|right]; rewrite <- T; unfold tb, left90; apply v2_ext; cbn [x2 y2]; ring. }
    replace (2 * ra * (2 * rb)) with ((cb + rb - (cb - rb)) * (ca + ra - (ca - ra))) by ring. destruct S as [S|S].
    - apply (L w W). intros q Q. apply in_map_iff in Q. destruct Q as (p & <- & P). rewrite <- S, PA, PB. destruct (H p P). lra.
    - replace ((cb + rb - (cb - rb)) * (ca + ra - (ca - ra))) with ((- (cb - rb) - - (cb + rb)) * (ca + ra - (ca - ra))) by ring. apply (L w W). intros q Q. apply in_map_iff in Q. destruct Q as (p & <- & P).
      assert (E : dt (left90 w) (prj u v p) = - dt w2 (prj u v p)) by (rewrite S; unfold left90, dt; cbn [x2 y2]; ring). rewrite E, PA, PB. destruct (H p P). lra.
  Qed.
End Frame.

(** ** Sizes of the box with given axes *)
Definition tight (d : pt) (pts : list pt) (lo hi : R) : Prop := (forall p, In p pts -> lo <= dot p d <= hi) /\ (exists p, In p pts /\ dot p d = lo) /\ exists p, In p pts /\ dot p d = hi.
Lemma extreme_tight d pts i j lo hi : OBB_ExtremePointsAlongDirection d pts = Some (i, j, lo, hi) -> tight d pts lo hi /\ exists a b, nth_error pts i = Some a /\ nth_error pts j = Some b /\ dot a d = lo /\ dot b d = hi.
Proof.
  intros E. pose proof (C51_extreme_points d pts) as X. rewrite E in X. destruct X as (((a & NA & A) & L & _) & ((b & NB & B) & H & _)). cbn beta in *.
  split; [|exists a, b; repeat split; try assumption; lra]. split; [intros p P; specialize (L p P); specialize (H p P); lra|]. split; [exists a; split; [now apply nth_error_In in NA|exact A]|exists b; split; [now apply nth_error_In in NB|lra]].
Qed.
Lemma extreme_some d (pts : list pt) : pts <> [] -> exists i j lo hi, OBB_ExtremePointsAlongDirection d pts = Some (i, j, lo, hi).
Proof. intros N. destruct pts as [|p pts]; [contradiction|]. unfold OBB_ExtremePointsAlongDirection. destruct (snd _) as [[[i j] lo] hi] eqn:E. exists i, j, lo, hi. reflexivity. Qed.
Lemma tight_width d pts lo hi lo' hi' : tight d pts lo hi -> tight d pts lo' hi' -> hi - lo = hi' - lo'.
Proof. intros (A & (p & P & P1) & (q & Q & Q1)) (B & (p' & P' & P1') & (q' & Q' & Q1')). pose proof (A p' P'). pose proof (A q' Q'). pose proof (B p P). pose proof (B q Q). lra. Qed.
Lemma fixed_sizes pts d0 d1 : pts <> [] -> unitv d0 -> unitv d1 -> orth d0 d1 -> exists o, OBB_FixedOrientationEnclosingOBB pts d0 d1 = Some o /\ oaxis2 o = cross d0 d1 /\
  (forall lo hi, tight d0 pts lo hi -> 2 * vx (orad o) = hi - lo) /\ (forall lo hi, tight d1 pts lo hi -> 2 * vy (orad o) = hi - lo) /\ (forall lo hi, tight (cross d0 d1) pts lo hi -> 2 * vz (orad o) = hi - lo).
Proof.
  intros N U0 U1 O. unfold OBB_FixedOrientationEnclosingOBB. change (@Cross R Num_R) with cross.
  assert (UC : unitv (cross d0 d1)) by (unfold unitv, orth in *; rewrite cross_sq, U0, U1, O; ring). rewrite (Normalized_unit _ UC). set (e := cross d0 d1) in *. clearbody e.
  destruct (extreme_some d0 pts N) as (i0 & j0 & l0 & h0 & E0). destruct (extreme_some d1 pts N) as (i1 & j1 & l1 & h1 & E1). destruct (extreme_some e pts N) as (i2 & j2 & l2 & h2 & E2). rewrite E0, E1, E2.
  eexists. split; [reflexivity|]. cbn [oaxis2 orad vx vy vz]. change (@nhalf R Num_R) with (1/2). rsimpl. split; [reflexivity|].
  split; [|split]; intros lo hi T; [rewrite (tight_width _ _ _ _ _ _ T (proj1 (extreme_tight _ _ _ _ _ _ E0)))|rewrite (tight_width _ _ _ _ _ _ T (proj1 (extreme_tight _ _ _ _ _ _ E1)))|rewrite (tight_width _ _ _ _ _ _ T (proj1 (extreme_tight _ _ _ _ _ _ E2)))]; field.
Qed.
