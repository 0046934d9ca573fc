(** Properties C23-C25 of AABB. *)
From Coq Require Import Reals Lra Psatz ZArith Bool List Lia.
From Verif Require Import Num NumR ScalarModel ScalarProofs ScalarProps Vec3Model GeoTypes GeoSpec GeoLemmas
  Vec3Props AabbModel AabbSpec AabbProofs AabbProps.
Import ListNotations.
Ltac Zify.zify_post_hook ::= idtac.
Open Scope R_scope.

(** ** C23 *)
(** The tolerance of the code: a direction component is exactly zero or not "near-parallel". *)
Definition not_near_parallel (d : pt) : Prop :=
  (vx d = 0 \/ 1/10000 <= Rabs (vx d)) /\ (vy d = 0 \/ 1/10000 <= Rabs (vy d)) /\ (vz d = 0 \/ 1/10000 <= Rabs (vz d)).
(** A proper starting range. *)
Definition range_ok (lo hi : ext R) : Prop := lo <> PInf /\ hi <> MInf.

Lemma emax_range x lo : lo <> PInf -> emax x lo <> PInf /\
  forall t, match emax x lo with MInf => True | Fin a => a <= t | PInf => False end <->
            match lo with MInf => True | Fin a => a <= t | PInf => False end /\ x <= t.
Proof.
  intros H. destruct lo as [|a|]; cbn [emax]; [|rewrite Max_R|congruence]; (split; [discriminate|]); intros t; [tauto|].
  unfold Rmax. destruct (Rle_dec x a); lra.
Qed.
Lemma emin_range x hi : hi <> MInf -> emin x hi <> MInf /\
  forall t, match emin x hi with MInf => False | Fin a => t <= a | PInf => True end <->
            match hi with MInf => False | Fin a => t <= a | PInf => True end /\ t <= x.
Proof.
  intros H. destruct hi as [|a|]; cbn [emin]; [congruence|rewrite Min_R|]; (split; [discriminate|]); intros t; [|tauto].
  unfold Rmin. destruct (Rle_dec x a); lra.
Qed.
Lemma slab_spec mn mx pos d tn tf : mn <= mx -> (d = 0 \/ 1/10000 <= Rabs d) -> range_ok tn tf ->
  let '(h, tn', tf') := slab mn mx pos d tn tf in
  range_ok tn' tf' /\
  if h then forall t, in_range tn' tf' t <-> in_range tn tf t /\ mn <= pos + t * d <= mx
  else forall t, ~ (mn <= pos + t * d <= mx).
Proof.
  intros L Hd [K1 K2]. unfold slab, EqualAbs. rewrite Abs_R. rsimpl.
  replace (d - 0) with d by ring. destruct (Rltb_spec (Rabs d) (1 / 10000)) as [S|S]; cbn [negb].
  - destruct Hd as [-> | Hd]; [|lra]. split; [split; assumption|].
    destruct (Rltb_spec pos mn), (Rltb_spec mx pos); cbn [orb negb]; intros t; rewrite Rmult_0_r, Rplus_0_r; intuition lra.
  - assert (D : d <> 0) by (intros ->; rewrite Rabs_R0 in S; lra).
    set (w := 1 / d). assert (W : w * d = 1) by (unfold w; field; exact D).
    assert (IFF : forall t, mn <= pos + t * d <= mx <->
      (if Rlt_dec ((mn - pos) * w) ((mx - pos) * w) then (mn - pos) * w <= t <= (mx - pos) * w else (mx - pos) * w <= t <= (mn - pos) * w)).
    { intros t. clearbody w. destruct (Rlt_dec 0 d) as [P|N].
      - assert (0 < w) by nra. destruct (Rlt_dec _ _) as [A|A].
        + split; intros [X Y].
          * split; apply Rmult_le_reg_r with d; try exact P.
            -- replace ((mn - pos) * w * d) with ((mn - pos) * (w * d)) by ring. rewrite W. lra.
            -- replace ((mx - pos) * w * d) with ((mx - pos) * (w * d)) by ring. rewrite W. lra.
          * apply Rmult_le_compat_r with (r := d) in X; [|lra]. apply Rmult_le_compat_r with (r := d) in Y; [|lra].
            replace ((mn - pos) * w * d) with ((mn - pos) * (w * d)) in X by ring. replace ((mx - pos) * w * d) with ((mx - pos) * (w * d)) in Y by ring.
            rewrite W in X, Y. lra.
        + assert (mn = mx) by nra. subst mx. split; intros [X Y].
          * assert (t * d = mn - pos) by lra. assert (t = (mn - pos) * w) by (rewrite <- H0; rewrite Rmult_assoc, (Rmult_comm d), W; ring). lra.
          * assert (t = (mn - pos) * w) by lra. subst t. rewrite Rmult_assoc, W. lra.
      - assert (N' : d < 0) by lra. assert (w < 0) by nra. destruct (Rlt_dec _ _) as [A|A].
        + exfalso. nra.
        + split; intros [X Y].
          * split; apply Rmult_le_reg_r with (- d); try lra.
            -- replace ((mx - pos) * w * - d) with (- ((mx - pos) * (w * d))) by ring. rewrite W. lra.
            -- replace ((mn - pos) * w * - d) with (- ((mn - pos) * (w * d))) by ring. rewrite W. lra.
          * apply Rmult_le_compat_r with (r := - d) in X; [|lra]. apply Rmult_le_compat_r with (r := - d) in Y; [|lra].
            replace ((mn - pos) * w * - d) with (- ((mn - pos) * (w * d))) in Y by ring. replace ((mx - pos) * w * - d) with (- ((mx - pos) * (w * d))) in X by ring.
            rewrite W in X, Y. lra. }
    clearbody w. unfold Rltb. destruct (Rlt_dec ((mn - pos) * w) ((mx - pos) * w)) as [A|A].
    + destruct (emax_range ((mn - pos) * w) tn K1) as [E1 E2]. destruct (emin_range ((mx - pos) * w) tf K2) as [E3 E4].
      split; [split; assumption|]. intros t. rewrite IFF. unfold in_range. rewrite E2, E4. tauto.
    + destruct (emax_range ((mx - pos) * w) tn K1) as [E1 E2]. destruct (emin_range ((mn - pos) * w) tf K2) as [E3 E4].
      split; [split; assumption|]. intros t. rewrite IFF. unfold in_range. rewrite E2, E4. tauto.
Qed.
Lemma egt_empty (tn tf : ext R) t : egt tn tf = true -> ~ in_range tn tf t.
Proof.
  unfold in_range. destruct tn as [|a|], tf as [|b|]; cbn [egt]; try discriminate; try tauto.
  rsimpl. rewrite Rltb_true. lra.
Qed.
Lemma ele_false (tn tf : ext R) t : ele tn tf = false -> ~ in_range tn tf t.
Proof.
  unfold in_range. destruct tn as [|a|], tf as [|b|]; cbn [ele]; try discriminate; try tauto.
  rsimpl. rewrite Rleb_false. lra.
Qed.
Lemma ele_true (tn tf : ext R) : range_ok tn tf -> ele tn tf = true -> exists t, in_range tn tf t.
Proof.
  intros [A B]. unfold in_range. destruct tn as [|a|], tf as [|b|]; cbn [ele]; try congruence; try rsimpl; intros E.
  - exists b. split; [exact I|lra].
  - exists 0. tauto.
  - exists a. apply Rleb_true in E. lra.
  - exists a. split; [lra|exact I].
Qed.

(** The slab test: hit exactly if some parameter in the range gives a point of the box, and then the output range is the set
    of those parameters. *)
Theorem C23_line_box : forall (b : aabb R) p d tn tf, box_ok b -> not_near_parallel d -> range_ok tn tf ->
  let '(hit, tn', tf') := AABB_IntersectLine b p d tn tf in
  (hit = true <-> exists t, in_range tn tf t /\ in_box b (along p d t)) /\
  (hit = true -> forall t, in_range tn' tf' t <-> in_range tn tf t /\ in_box b (along p d t)).
Proof.
  intros b p d tn tf (L1&L2&L3) (D1&D2&D3) K. unfold AABB_IntersectLine.
  unfold in_box, along, plus, scale. cbn [vx vy vz].
  pose proof (slab_spec _ _ (vx p) (vx d) tn tf L1 D1 K) as S1. destruct (slab _ _ (vx p) (vx d) tn tf) as [[h1 tn1] tf1].
  destruct S1 as [K1 S1]. destruct h1; cbn [negb].
  2:{ split; [|discriminate]. split; [discriminate|]. intros (t & _ & A & _). exfalso. now apply (S1 t). }
  assert (NO : forall tn tf X, (egt tn tf && X)%bool = true -> forall t, ~ in_range tn tf t).
  { intros tn0 tf0 X E t. apply andb_true_iff in E. destruct E. now apply egt_empty. }
  destruct (negb (EqualAbs (vx d) n0 (nlit 1 10000)) && egt tn1 tf1) eqn:E1.
  { rewrite andb_comm in E1. split; [|discriminate]. split; [discriminate|]. intros (t & R & A & _). exfalso.
    apply (NO _ _ _ E1 t), S1. tauto. }
  pose proof (slab_spec _ _ (vy p) (vy d) tn1 tf1 L2 D2 K1) as S2. destruct (slab _ _ (vy p) (vy d) tn1 tf1) as [[h2 tn2] tf2].
  destruct S2 as [K2 S2]. destruct h2; cbn [negb].
  2:{ split; [|discriminate]. split; [discriminate|]. intros (t & _ & _ & A & _). exfalso. now apply (S2 t). }
  destruct (negb (EqualAbs (vy d) n0 (nlit 1 10000)) && egt tn2 tf2) eqn:E2.
  { rewrite andb_comm in E2. split; [|discriminate]. split; [discriminate|]. intros (t & R & A & B & _). exfalso.
    apply (NO _ _ _ E2 t), S2. split; [|tauto]. apply S1. tauto. }
  pose proof (slab_spec _ _ (vz p) (vz d) tn2 tf2 L3 D3 K2) as S3. destruct (slab _ _ (vz p) (vz d) tn2 tf2) as [[h3 tn3] tf3].
  destruct S3 as [K3 S3]. destruct h3; cbn [negb].
  2:{ split; [|discriminate]. split; [discriminate|]. intros (t & _ & _ & _ & A). exfalso. now apply (S3 t). }
  assert (ALL : forall t, in_range tn3 tf3 t <-> in_range tn tf t /\ (vx (minPoint b) <= vx p + t * vx d <= vx (maxPoint b) /\
    vy (minPoint b) <= vy p + t * vy d <= vy (maxPoint b) /\ vz (minPoint b) <= vz p + t * vz d <= vz (maxPoint b))).
  { intros t. rewrite S3, S2, S1. tauto. }
  split; [|intros _; exact ALL]. split.
  - intros E. destruct (ele_true _ _ K3 E) as [t Ht]. exists t. now apply ALL.
  - intros (t & Ht). destruct (ele tn3 tf3) eqn:E; [reflexivity|]. exfalso. apply (ele_false _ _ t E). now apply ALL.
Qed.
Print Assumptions C23_line_box.
Theorem C23_ray_and_line : forall (b : aabb R) (r : ray R) (l : line R), box_ok b -> not_near_parallel (rdir r) -> not_near_parallel (ldir l) ->
  (fst (fst (AABB_IntersectsRay b r)) = true <-> exists t, 0 <= t /\ in_box b (along (rpos r) (rdir r) t)) /\
  (fst (fst (AABB_IntersectsLine b l)) = true <-> exists t, in_box b (along (lpos l) (ldir l) t)) /\
  (fst (fst (AABB_IntersectsRay b r)) = true -> forall t,
     in_range (snd (fst (AABB_IntersectsRay b r))) (snd (AABB_IntersectsRay b r)) t <-> 0 <= t /\ in_box b (along (rpos r) (rdir r) t)) /\
  (fst (fst (AABB_IntersectsLine b l)) = true -> forall t,
     in_range (snd (fst (AABB_IntersectsLine b l))) (snd (AABB_IntersectsLine b l)) t <-> in_box b (along (lpos l) (ldir l) t)).
Proof.
  intros b r l K Dr Dl.
  pose proof (C23_line_box b (rpos r) (rdir r) (Fin 0) PInf K Dr ltac:(split; discriminate)) as RR.
  pose proof (C23_line_box b (lpos l) (ldir l) MInf PInf K Dl ltac:(split; discriminate)) as LL.
  unfold AABB_IntersectsRay, AABB_IntersectsLine. change (n0 : R) with 0.
  destruct (AABB_IntersectLine b (rpos r) (rdir r) (Fin 0) PInf) as [[hr rn] rf].
  destruct (AABB_IntersectLine b (lpos l) (ldir l) MInf PInf) as [[hl ln] lf]. cbn [fst snd].
  destruct RR as [R1 R2], LL as [L1 L2]. unfold in_range at 1 in R1. unfold in_range at 1 in L1.
  split; [rewrite R1; split; intros (t & A); exists t; tauto|].
  split; [rewrite L1; split; intros (t & A); exists t; tauto|].
  split; [intros H t; rewrite (R2 H t); unfold in_range; tauto|intros H t; rewrite (L2 H t); unfold in_range; tauto].
Qed.
Print Assumptions C23_ray_and_line.
(** Segments: parameters are fractions of the segment, in [0,1]. *)
Theorem C23_segment : forall (b : aabb R) (s : segment R), box_ok b ->
  not_near_parallel (scale (/ norm (minus (seg_b s) (seg_a s))) (minus (seg_b s) (seg_a s))) ->
  (seg_a s = seg_b s \/ 1/10000 < dist (seg_b s) (seg_a s)) ->
  let '(hit, dn, df) := AABB_IntersectsSegment b s in
  (hit = true <-> exists p, on_segment s p /\ in_box b p) /\
  (hit = true -> forall t, in_range dn df t <-> 0 <= t <= 1 /\ in_box b (along (seg_a s) (minus (seg_b s) (seg_a s)) t)).
Proof.
  intros b s K NP Deg. unfold AABB_IntersectsSegment. toR. rsimpl. cbv zeta. set (v := minus (seg_b s) (seg_a s)) in *.
  destruct (Rleb_spec (norm v) (1/10000)) as [Sm|Big].
  - destruct Deg as [E|G]; [|fold v in G; unfold dist in G; fold v in G; lra].
    assert (V : forall t, along (seg_a s) v t = seg_a s).
    { intros t. unfold v, along. rewrite E. apply vec_ext; cbn; ring. }
    rewrite C20_contains_point, inside_R. split.
    + split.
      * intros I. exists (seg_a s). split; [apply seg_a_on|exact I].
      * intros (p & (t & _ & ->) & I). fold v in I. change (plus (seg_a s) (scale t v)) with (along (seg_a s) v t) in I. now rewrite V in I.
    + intros I t. rewrite V. unfold in_range. tauto.
  - set (len := norm v) in *. assert (P : 0 < len) by lra. 
    replace (1 / len) with (/ len) by (unfold Rdiv; ring).
    pose proof (C23_line_box b (seg_a s) (scale (/ len) v) (Fin 0) (Fin len) K NP ltac:(split; discriminate)) as RR.
    destruct (AABB_IntersectLine b (seg_a s) (scale (/ len) v) (Fin 0) (Fin len)) as [[hit dn] df] eqn:E.
    destruct RR as [R1 R2].
    assert (PT : forall t, along (seg_a s) (scale (/ len) v) (t * len) = along (seg_a s) v t).
    { intros t. unfold along. apply vec_ext; cbn; field; lra. }
    split.
    + rewrite R1. unfold in_range. split.
      * intros (t & A & B). exists (along (seg_a s) v (t / len)). split.
        -- exists (t / len). split; [|reflexivity]. split.
           ++ apply Rmult_le_pos; [lra|left; now apply Rinv_0_lt_compat].
           ++ apply Rmult_le_reg_r with len; [exact P|]. replace (t / len * len) with t by (field; lra). lra.
        -- rewrite <- PT. now replace (t / len * len) with t by (field; lra).
      * intros (p & (t & Ht & ->) & B). fold v in B. exists (t * len). split; [nra|]. rewrite PT. exact B.
    + intros H t. specialize (R2 H (t * len)). rewrite PT in R2.
      assert (W : forall x y, x * / len <= y <-> x <= y * len).
      { intros x y. split; intros L.
        - apply Rmult_le_compat_r with (r := len) in L; [|lra]. now replace (x * / len * len) with x in L by (field; lra).
        - apply Rmult_le_reg_r with len; [exact P|]. now replace (x * / len * len) with x by (field; lra). }
      assert (W' : forall x y, y <= x * / len <-> y * len <= x).
      { intros x y. split; intros L.
        - apply Rmult_le_compat_r with (r := len) in L; [|lra]. now replace (x * / len * len) with x in L by (field; lra).
        - apply Rmult_le_reg_r with len; [exact P|]. now replace (x * / len * len) with x by (field; lra). }
      assert (S : in_range (escale dn (/ len)) (escale df (/ len)) t <-> in_range dn df (t * len)).
      { unfold in_range. destruct dn, df; cbn [escale]; rsimpl; rewrite ?W, ?W'; tauto. }
      rewrite S, R2. unfold in_range.
      assert (0 <= t * len <= len <-> 0 <= t <= 1) by (split; intros; nra). tauto.
Qed.
Print Assumptions C23_segment.
Example C23_witness : let b := Box (V3 0 0 0) (V3 1 1 1) : aabb R in
  box_ok b /\ not_near_parallel (V3 (3/5) (4/5) 0) /\
  in_box b (along (V3 (-3) (-4) (1/2)) (V3 (3/5) (4/5) 0) 6) /\ ~ in_box b (along (V3 (-3) (-4) (1/2)) (V3 (3/5) (4/5) 0) 4).
Proof.
  cbn zeta. split; [unfold box_ok; cbn; lra|]. split.
  { unfold not_near_parallel; cbn. rewrite !Rabs_pos_eq by lra. lra. }
  unfold in_box; cbn. lra.
Qed.
(** Finding: inside the tolerance the test is not exact; this unit-length ray reaches the box but is reported to miss it. *)
Theorem C23_near_parallel_refuted :
  exists (b : aabb R) (r : ray R), box_ok b /\ (exists t, 0 <= t /\ in_box b (along (rpos r) (rdir r) t)) /\
    fst (fst (AABB_IntersectsRay b r)) = false.
Proof.
  exists (Box (V3 20000 1 (-1)) (V3 30000 2 1)), (Ry (V3 0 0 0) (V3 1 (1/20000) 0)).
  split; [unfold box_ok; cbn; lra|]. split; [exists 20000; split; [lra|]; unfold in_box; cbn; lra|].
  unfold AABB_IntersectsRay, AABB_IntersectLine, slab, EqualAbs. cbn [vx vy vz minPoint maxPoint rpos rdir]. rewrite !Abs_R. rsimpl.
  rewrite (Rabs_pos_eq (1 - 0)) by lra. rewrite (Rabs_pos_eq (1/20000 - 0)) by lra.
  destruct (Rltb_spec (1 - 0) (1/10000)); [lra|]. cbn [negb].
  destruct (Rltb_spec ((20000 - 0) * (1/1)) ((30000 - 0) * (1/1))); [|lra]. cbn [negb emax emin egt andb].
  rewrite Max_R. rsimpl. destruct (Rltb_spec (1/20000 - 0) (1/10000)); [|lra]. cbn [negb].
  destruct (Rltb_spec 0 1); [|lra]. cbn [orb negb]. destruct (Rltb _ (Rmax _ _)); reflexivity.
Qed.
Print Assumptions C23_near_parallel_refuted.

(** ** C24 *)
Theorem C24_extreme_point : forall (b : aabb R) d, box_ok b ->
  in_box b (AABB_ExtremePoint b d) /\ forall p, in_box b p -> dot d p <= dot d (AABB_ExtremePoint b d).
Proof.
  intros b d (L1&L2&L3). unfold AABB_ExtremePoint, in_box. rsimpl. cbn [vx vy vz]. split.
  - repeat rcase; lra.
  - intros p (P1&P2&P3). unfold dot. cbn [vx vy vz].
    assert (G : forall a lo hi x, lo <= hi -> lo <= x <= hi -> a * x <= a * (if Rleb 0 a then hi else lo)) by (intros; rcase; nra).
    pose proof (G (vx d) _ _ _ L1 P1). pose proof (G (vy d) _ _ _ L2 P2). pose proof (G (vz d) _ _ _ L3 P3). lra.
Qed.
Print Assumptions C24_extreme_point.
Theorem C24_project_to_axis : forall (b : aabb R) axis, box_ok b ->
  let '(lo, hi) := AABB_ProjectToAxis b axis in
  (forall p, in_box b p -> lo <= dot axis p <= hi) /\
  (exists p, in_box b p /\ dot axis p = lo) /\ (exists p, in_box b p /\ dot axis p = hi).
Proof.
  intros b a (L1&L2&L3). unfold AABB_ProjectToAxis. rewrite !Abs_R. vunf.
  set (mx := maxPoint b) in *. set (mn := minPoint b) in *.
  replace (vx mx - (vx mn + vx mx) * (1 / 2)) with ((vx mx - vx mn) / 2) by field.
  replace (vy mx - (vy mn + vy mx) * (1 / 2)) with ((vy mx - vy mn) / 2) by field.
  replace (vz mx - (vz mn + vz mx) * (1 / 2)) with ((vz mx - vz mn) / 2) by field.
  assert (G : forall a l h, l <= h -> 0 <= (h - l) / 2 * Rabs a) by (intros a0 l h H; apply Rmult_le_pos; [lra|apply Rabs_pos]).
  pose proof (G (vx a) _ _ L1) as G1. pose proof (G (vy a) _ _ L2) as G2. pose proof (G (vz a) _ _ L3) as G3.
  rewrite Rabs_pos_eq by lra. clear G G1 G2 G3.
  assert (U : forall a l h x, l <= x <= h -> a * ((l + h) * (1/2)) - (h - l) / 2 * Rabs a <= a * x <= a * ((l + h) * (1/2)) + (h - l) / 2 * Rabs a).
  { intros a0 l h x H. unfold Rabs. destruct (Rcase_abs a0); nra. }
  assert (HI : forall a l h, a * ((l + h) * (1/2)) + (h - l) / 2 * Rabs a = a * (if Rcase_abs a then l else h)).
  { intros a0 l h. unfold Rabs. destruct (Rcase_abs a0); field. }
  assert (LO : forall a l h, a * ((l + h) * (1/2)) - (h - l) / 2 * Rabs a = a * (if Rcase_abs a then h else l)).
  { intros a0 l h. unfold Rabs. destruct (Rcase_abs a0); field. }
  split; [|split].
  - intros p (P1&P2&P3). unfold dot. pose proof (U (vx a) _ _ _ P1). pose proof (U (vy a) _ _ _ P2). pose proof (U (vz a) _ _ _ P3). subst mx mn. lra.
  - exists (V3 (if Rcase_abs (vx a) then vx mx else vx mn) (if Rcase_abs (vy a) then vy mx else vy mn) (if Rcase_abs (vz a) then vz mx else vz mn)).
    split.
    + unfold in_box. fold mx mn. cbn [vx vy vz]. repeat (destruct (Rcase_abs _)); lra.
    + unfold dot. cbn [vx vy vz]. rewrite <- !LO. ring.
  - exists (V3 (if Rcase_abs (vx a) then vx mn else vx mx) (if Rcase_abs (vy a) then vy mn else vy mx) (if Rcase_abs (vz a) then vz mn else vz mx)).
    split.
    + unfold in_box. fold mx mn. cbn [vx vy vz]. repeat (destruct (Rcase_abs _)); lra.
    + unfold dot. cbn [vx vy vz]. rewrite <- !HI. ring.
Qed.
Print Assumptions C24_project_to_axis.
(** The corners are the eight combinations of bounds: corner i takes the upper x, y, z bound according to bits 2, 1, 0 of i. *)
Theorem C24_corners : forall (b : aabb R) i, (i < 8)%nat ->
  AABB_CornerPoint b i =
    V3 (if Nat.testbit i 2 then vx (maxPoint b) else vx (minPoint b))
       (if Nat.testbit i 1 then vy (maxPoint b) else vy (minPoint b))
       (if Nat.testbit i 0 then vz (maxPoint b) else vz (minPoint b)).
Proof.
  intros [[x1 y1 z1] [x2 y2 z2]] i H. do 8 (destruct i as [|i]; [reflexivity|]). exfalso. lia.
Qed.
Print Assumptions C24_corners.
(** Every edge joins two corners that differ in exactly one of the three bounds, and each such pair is an edge exactly once. *)
Theorem C24_edges : forall (b : aabb R),
  (forall i, (i < 12)%nat -> exists m n bit, (m < 8)%nat /\ (bit < 3)%nat /\ Nat.testbit m bit = false /\ n = (m + 2 ^ bit)%nat /\
     AABB_Edge b i = Seg (AABB_CornerPoint b m) (AABB_CornerPoint b n)) /\
  (forall m bit, (m < 8)%nat -> (bit < 3)%nat -> Nat.testbit m bit = false ->
     exists i, (i < 12)%nat /\ AABB_Edge b i = Seg (AABB_CornerPoint b m) (AABB_CornerPoint b (m + 2 ^ bit)%nat)).
Proof.
  intros b. split.
  - intros i H.
    pose (tab := [(0,0);(0,1);(0,2);(1,1);(1,2);(2,0);(2,2);(3,2);(4,0);(4,1);(5,1);(6,0)]%nat).
    exists (fst (nth i tab (0,0)%nat)), (fst (nth i tab (0,0)%nat) + 2 ^ snd (nth i tab (0,0)%nat))%nat, (snd (nth i tab (0,0)%nat)).
    do 12 (destruct i as [|i]; [cbn [nth tab fst snd]; repeat split; lia || reflexivity|]). exfalso. lia.
  - intros m bit Hm Hb.
    do 8 (destruct m as [|m]; [do 3 (destruct bit as [|bit]; [cbn; intros E; try discriminate E;
      first [exists 0%nat; split; [lia|reflexivity]|exists 1%nat; split; [lia|reflexivity]|exists 2%nat; split; [lia|reflexivity]
            |exists 3%nat; split; [lia|reflexivity]|exists 4%nat; split; [lia|reflexivity]|exists 5%nat; split; [lia|reflexivity]
            |exists 6%nat; split; [lia|reflexivity]|exists 7%nat; split; [lia|reflexivity]|exists 8%nat; split; [lia|reflexivity]
            |exists 9%nat; split; [lia|reflexivity]|exists 10%nat; split; [lia|reflexivity]|exists 11%nat; split; [lia|reflexivity]]|]); exfalso; lia|]).
    exfalso. lia.
Qed.
Print Assumptions C24_edges.
(** PointOnEdge(i, u) is the point at fraction u of one edge, a different edge for each i -- but not Edge(i). *)
Definition edge_of_point (i : nat) : nat := nth i [0; 5; 8; 11; 1; 9; 3; 10; 2; 4; 6; 7]%nat 0%nat.
Theorem C24_point_on_edge : forall (b : aabb R) i u, (i < 12)%nat ->
  let e := AABB_Edge b (edge_of_point i) in
  AABB_PointOnEdge b i u = plus (seg_a e) (scale u (minus (seg_b e) (seg_a e))).
Proof.
  intros [[x1 y1 z1] [x2 y2 z2]] i u H. do 12 (destruct i as [|i]; [apply vec_ext; cbn; ring|]). exfalso. lia.
Qed.
Print Assumptions C24_point_on_edge.
Theorem C24_point_on_edge_bijective : forall j, (j < 12)%nat -> exists! i, (i < 12)%nat /\ edge_of_point i = j.
Proof.
  assert (S : forall i, (12 <= i)%nat -> ~ (i < 12)%nat) by (intros; lia).
  intros j Hj. exists (nth j [0; 4; 8; 6; 9; 1; 10; 11; 2; 5; 7; 3]%nat 0%nat).
  do 12 (destruct j as [|j]; [split; [split; [cbn; lia|reflexivity]|]; intros i [Hi E];
    do 12 (destruct i as [|i]; [cbn in E; discriminate E || reflexivity|]); exfalso; lia|]). exfalso. lia.
Qed.
Print Assumptions C24_point_on_edge_bijective.
Theorem C24_point_on_edge_numbering_refuted : exists (b : aabb R) i u, box_ok b /\ (i < 12)%nat /\ 0 <= u <= 1 /\
  ~ on_segment (AABB_Edge b i) (AABB_PointOnEdge b i u).
Proof.
  exists (Box (V3 0 0 0) (V3 1 1 1)), 1%nat, 1. split; [unfold box_ok; cbn; lra|]. split; [lia|]. split; [lra|].
  intros (t & Ht & E). apply (f_equal vz) in E. cbn in E. lra.
Qed.
Print Assumptions C24_point_on_edge_numbering_refuted.
(** FacePoint(i, u, v) lies in the box and furthest along FaceNormal(i); FaceCenterPoint(i) is its centre. *)
Theorem C24_faces : forall (b : aabb R) i u v, (i < 6)%nat -> box_ok b -> 0 <= u <= 1 -> 0 <= v <= 1 ->
  in_box b (AABB_FacePoint b i u v) /\
  (forall p, in_box b p -> dot (AABB_FaceNormal i) p <= dot (AABB_FaceNormal i) (AABB_FacePoint b i u v)) /\
  AABB_FaceCenterPoint b i = AABB_FacePoint b i (1/2) (1/2).
Proof.
  intros [[x1 y1 z1] [x2 y2 z2]] i u v H (L1&L2&L3) Hu Hv. cbn in L1, L2, L3.
  assert (G : forall l h t, l <= h -> 0 <= t <= 1 -> l <= l + t * (h - l) <= h) by (intros; nra).
  pose proof (G x1 x2 u L1 Hu). pose proof (G y1 y2 u L2 Hu). pose proof (G y1 y2 v L2 Hv). pose proof (G z1 z2 v L3 Hv).
  do 6 (destruct i as [|i]; [unfold in_box, dot; cbn; split; [lra|split; [intros; lra|f_equal; field]]|]). exfalso. lia.
Qed.
Print Assumptions C24_faces.
Theorem C24_point_inside : forall (b : aabb R) x y z, box_ok b -> 0 <= x <= 1 -> 0 <= y <= 1 -> 0 <= z <= 1 ->
  in_box b (AABB_PointInside b x y z) /\
  (forall p, in_box b p -> exists x y z, 0 <= x <= 1 /\ 0 <= y <= 1 /\ 0 <= z <= 1 /\ p = AABB_PointInside b x y z).
Proof.
  intros b x y z (L1&L2&L3) X Y Z. unfold AABB_PointInside, in_box. vunf. split; [repeat split; nra|].
  assert (G : forall l h p, l <= h -> l <= p <= h -> exists t, 0 <= t <= 1 /\ p = l + (h - l) * t).
  { intros l h p L P. destruct (Req_dec l h) as [->|N]; [exists 0; split; [lra|]; lra|].
    exists ((p - l) / (h - l)). split; [|field; lra]. split.
    - apply Rmult_le_pos; [lra|]. left. apply Rinv_0_lt_compat. lra.
    - apply Rmult_le_reg_r with (h - l); [lra|]. replace ((p - l) / (h - l) * (h - l)) with (p - l) by (field; lra). lra. }
  intros p (P1&P2&P3). destruct (G _ _ _ L1 P1) as (t1 & ? & E1). destruct (G _ _ _ L2 P2) as (t2 & ? & E2). destruct (G _ _ _ L3 P3) as (t3 & ? & E3).
  exists t1, t2, t3. repeat split; try lra. now apply vec_ext.
Qed.
Print Assumptions C24_point_inside.
(** The enclosing sphere contains every point of the box and no smaller sphere does; the contained sphere is inside and no
    larger sphere is. *)
Theorem C24_minimal_enclosing_sphere : forall (b : aabb R), box_ok b ->
  (forall p, in_box b p -> in_sphere (AABB_MinimalEnclosingSphere b) p) /\
  (forall s, (forall p, in_box b p -> in_sphere s p) -> srad (AABB_MinimalEnclosingSphere b) <= srad s).
Proof.
  intros b (L1&L2&L3). unfold AABB_MinimalEnclosingSphere, AABB_CenterPoint, AABB_Size. toR. rsimpl. cbn [srad]. split.
  - intros p (P1&P2&P3). unfold in_sphere. cbn [spos srad]. pose proof (norm_pos (minus (maxPoint b) (minPoint b))) as NP.
    unfold dist. apply norm_sq_le; [lra|].
    replace (norm (minus (maxPoint b) (minPoint b)) * (1 / 2) * (norm (minus (maxPoint b) (minPoint b)) * (1 / 2)))
      with (dot (minus (maxPoint b) (minPoint b)) (minus (maxPoint b) (minPoint b)) / 4) by (rewrite <- norm_sq; field).
    unfold dot, minus, plus, scale. cbn [vx vy vz].
    assert (G : forall l h p, l <= p <= h -> (1/2 * (l + h) - p) * (1/2 * (l + h) - p) <= (h - l) * (h - l) / 4) by (intros; nra).
    pose proof (G _ _ _ P1). pose proof (G _ _ _ P2). pose proof (G _ _ _ P3). lra.
  - intros s H. assert (A : in_sphere s (minPoint b)) by (apply H; unfold in_box; lra).
    assert (B : in_sphere s (maxPoint b)) by (apply H; unfold in_box; lra).
    unfold in_sphere in *. pose proof (dist_triangle (maxPoint b) (spos s) (minPoint b)). rewrite (dist_sym (maxPoint b) (spos s)) in H0.
    unfold dist in H0 at 1. lra.
Qed.
Print Assumptions C24_minimal_enclosing_sphere.
Theorem C24_maximal_contained_sphere : forall (b : aabb R), box_ok b ->
  (forall p, in_sphere (AABB_MaximalContainedSphere b) p -> in_box b p) /\
  (forall s, 0 <= srad s -> (forall p, in_sphere s p -> in_box b p) -> srad s <= srad (AABB_MaximalContainedSphere b)).
Proof.
  intros b (L1&L2&L3). unfold AABB_MaximalContainedSphere, AABB_CenterPoint, AABB_HalfSize, AABB_Size. cbv zeta. toR. rsimpl. unfold Min3. rewrite !Min_R.
  unfold scale, minus, plus. cbn [srad vx vy vz spos]. split.
  - intros p P. unfold in_sphere in P. cbn [spos srad] in P. apply coord_dist in P. destruct P as (P1&P2&P3).
    apply Rabs_le_inv2 in P1, P2, P3. cbn [vx vy vz] in *. revert P1 P2 P3.
    set (m := Rmin (Rmin _ _) _). assert (m <= 1/2 * (vx (maxPoint b) - vx (minPoint b)) /\ m <= 1/2 * (vy (maxPoint b) - vy (minPoint b)) /\ m <= 1/2 * (vz (maxPoint b) - vz (minPoint b))).
    { unfold m. split; [|split]; [eapply Rle_trans; [apply Rmin_l|apply Rmin_l]|eapply Rle_trans; [apply Rmin_l|apply Rmin_r]|apply Rmin_r]. }
    intros. unfold in_box. lra.
  - intros s Hr H. pose proof (proj1 (tight_within _ _ b (tight_sphere s Hr))) as _.
    apply (tight_within _ _ b (tight_sphere s Hr)) in H. apply within_R in H. cbn [minPoint maxPoint] in H. unfold FromScalar in H. toR.
    unfold minus, plus in H. cbn [vx vy vz] in H. apply Rmin_glb; [apply Rmin_glb|]; lra.
Qed.
Print Assumptions C24_maximal_contained_sphere.
(** Volume and surface area, from the corners: the edges leaving corner 0 go to corners 4, 2 and 1; the volume is their
    (absolute) scalar triple product, the surface twice the three face areas, each |e x f| by Lagrange's identity. *)
Definition face_area (e f : pt) : R := sqrt (dot e e * dot f f - dot e f * dot e f).
Theorem C24_volume_surface : forall (b : aabb R), box_ok b ->
  let e i := minus (AABB_CornerPoint b i) (AABB_CornerPoint b 0) in
  AABB_Volume b = Rabs (volume (e 4%nat) (e 2%nat) (e 1%nat)) /\
  AABB_SurfaceArea b = 2 * (face_area (e 4%nat) (e 2%nat) + face_area (e 4%nat) (e 1%nat) + face_area (e 2%nat) (e 1%nat)) /\
  0 <= AABB_Volume b /\ 0 <= AABB_SurfaceArea b.
Proof.
  intros [[x1 y1 z1] [x2 y2 z2]] (L1&L2&L3) e. cbn [minPoint maxPoint vx vy vz] in *.
  assert (E4 : e 4%nat = V3 (x2 - x1) 0 0) by (apply vec_ext; cbn; ring).
  assert (E2 : e 2%nat = V3 0 (y2 - y1) 0) by (apply vec_ext; cbn; ring).
  assert (E1 : e 1%nat = V3 0 0 (z2 - z1)) by (apply vec_ext; cbn; ring).
  assert (V : AABB_Volume (Box (V3 x1 y1 z1) (V3 x2 y2 z2)) = (x2 - x1) * (y2 - y1) * (z2 - z1)) by reflexivity.
  assert (S : AABB_SurfaceArea (Box (V3 x1 y1 z1) (V3 x2 y2 z2)) = 2 * ((x2 - x1) * (y2 - y1) + (x2 - x1) * (z2 - z1) + (y2 - y1) * (z2 - z1))).
  { unfold AABB_SurfaceArea, AABB_Size. vunf. cbn [minPoint maxPoint vx vy vz]. rsimpl. ring. }
  rewrite E4, E2, E1, V, S. unfold face_area, volume, dot. cbn [vx vy vz].
  assert (F : forall a c r, 0 <= a -> 0 <= c -> r = (a * c) * (a * c) -> sqrt r = a * c).
  { intros a c r Ha Hc ->. apply sqrt_square. now apply Rmult_le_pos. }
  assert (0 <= (x2 - x1) * (y2 - y1)) by (apply Rmult_le_pos; lra).
  assert (0 <= (x2 - x1) * (z2 - z1)) by (apply Rmult_le_pos; lra).
  assert (0 <= (y2 - y1) * (z2 - z1)) by (apply Rmult_le_pos; lra).
  assert (0 <= (x2 - x1) * (y2 - y1) * (z2 - z1)) by (apply Rmult_le_pos; lra).
  split; [|split; [|split; lra]].
  - match goal with |- _ = Rabs ?t => replace t with ((x2 - x1) * (y2 - y1) * (z2 - z1)) by ring end. now rewrite Rabs_pos_eq.
  - rewrite (F (x2 - x1) (y2 - y1)), (F (x2 - x1) (z2 - z1)), (F (y2 - y1) (z2 - z1)) by (lra || ring). reflexivity.
Qed.
Print Assumptions C24_volume_surface.
Example C24_volume_surface_witness : AABB_Volume (Box (V3 (-1) 0 2) (V3 1 3 6)) = 24 /\ AABB_SurfaceArea (Box (V3 (-1) 0 2) (V3 1 3 6)) = 52.
Proof. split; unfold AABB_Volume, AABB_SurfaceArea, AABB_Size; vunf; cbn [minPoint maxPoint vx vy vz]; rsimpl; ring. Qed.
(** ExtremePointsAlongAABB: for any number of points the six indices are in range and point at the extreme coordinates. *)
Section Arg.
  Context {T : Type} `{OL : OrdLaws T}.
  Lemma argbest_spec (lt : T -> T -> bool) (P : T -> Prop) (REFL : forall x, P x -> lt x x = false)
     (TR : forall x y z, P x -> P y -> P z -> lt y x = false -> lt y z = true -> lt z x = true -> False)
     (TR2 : forall x y z, P x -> P y -> P z -> lt x y = true -> lt z y = false -> lt z x = false) :
    forall xs pre best d, Forall P (pre ++ xs) -> (best < length pre)%nat ->
    (forall x, In x pre -> lt x (nth best pre d) = false) ->
    let r := argbest lt xs (length pre) best (nth best pre d) in
    (r < length (pre ++ xs))%nat /\ forall x, In x (pre ++ xs) -> lt x (nth r (pre ++ xs) d) = false.
  Proof.
    induction xs as [|y ys IH]; intros pre best d F Hb HB.
    - cbn [argbest]. rewrite app_nil_r. auto.
    - cbn [argbest]. assert (E : pre ++ y :: ys = (pre ++ [y]) ++ ys) by now rewrite <- app_assoc.
      assert (Py : P y). { rewrite Forall_forall in F. apply F, in_or_app. right. now left. }
      assert (Pn : P (nth best pre d)). { rewrite Forall_forall in F. apply F, in_or_app. left. now apply nth_In. }
      destruct (lt y (nth best pre d)) eqn:L.
      + specialize (IH (pre ++ [y]) (length pre) d). rewrite <- E in IH. rewrite app_length in IH. cbn [length] in IH.
        rewrite Nat.add_1_r in IH. rewrite app_nth2, Nat.sub_diag in IH by lia. cbn [nth] in IH. apply IH; [exact F|lia|].
        intros x Hx. apply in_app_or in Hx. destruct Hx as [Hx|[<-|[]]]; [|now apply REFL].
        apply (TR2 y (nth best pre d) x); auto. rewrite Forall_forall in F. apply F, in_or_app. now left.
      + specialize (IH (pre ++ [y]) best d). rewrite <- E in IH. rewrite app_length in IH. cbn [length] in IH.
        rewrite Nat.add_1_r in IH. rewrite app_nth1 in IH by lia. apply IH; [exact F|lia|].
        intros x Hx. apply in_app_or in Hx. destruct Hx as [Hx|[<-|[]]]; auto.
  Qed.
  Lemma argmin_spec xs d : xs <> [] -> Forall ok xs -> (argmin xs < length xs)%nat /\ forall x, In x xs -> nleb (nth (argmin xs) xs d) x = true.
  Proof.
    intros N F. destruct xs as [|x xs]; [congruence|]. unfold argmin.
    destruct (argbest_spec (fun a b => nltb a b) ok) with (xs := xs) (pre := [x]) (best := 0%nat) (d := d) as [A B].
    - intros y Oy. now rewrite ltb_leb, leb_refl_ok.
    - intros a b c Oa Ob Oc. rewrite !ltb_leb, !negb_true_iff, negb_false_iff by assumption. intros H1 H2 H3.
      rewrite (leb_trans a b c) in H3; [discriminate|exact H1|now apply leb_false_sym].
    - intros a b c Oa Ob Oc. rewrite !ltb_leb, negb_true_iff, !negb_false_iff by assumption. intros H1 H2.
      apply leb_trans with b; [now apply leb_false_sym|exact H2].
    - exact F.
    - cbn; lia.
    - intros y [<-|[]]. cbn. inversion F; subst. now rewrite ltb_leb, leb_refl_ok.
    - cbn [length nth app] in *. split; [exact A|]. intros y Hy. specialize (B y Hy).
      rewrite ltb_leb, negb_false_iff in B; [exact B| |].
      + rewrite Forall_forall in F. now apply F.
      + rewrite Forall_forall in F. apply F. apply (nth_In (x :: xs) d A).
  Qed.
  Lemma argmax_spec xs d : xs <> [] -> Forall ok xs -> (argmax xs < length xs)%nat /\ forall x, In x xs -> nleb x (nth (argmax xs) xs d) = true.
  Proof.
    intros N F. destruct xs as [|x xs]; [congruence|]. unfold argmax.
    destruct (argbest_spec (fun a b => nltb b a) ok) with (xs := xs) (pre := [x]) (best := 0%nat) (d := d) as [A B].
    - intros y Oy. now rewrite ltb_leb, leb_refl_ok.
    - intros a b c Oa Ob Oc. rewrite !ltb_leb, !negb_true_iff, negb_false_iff by assumption. intros H1 H2 H3.
      rewrite (leb_trans c b a) in H3; [discriminate|now apply leb_false_sym|exact H1].
    - intros a b c Oa Ob Oc. rewrite !ltb_leb, negb_true_iff, !negb_false_iff by assumption. intros H1 H2.
      apply leb_trans with b; [exact H2|now apply leb_false_sym].
    - exact F.
    - cbn; lia.
    - intros y [<-|[]]. cbn. inversion F; subst. now rewrite ltb_leb, leb_refl_ok.
    - cbn [length nth app] in *. split; [exact A|]. intros y Hy. specialize (B y Hy).
      rewrite ltb_leb, negb_false_iff in B; [exact B| |].
      + rewrite Forall_forall in F. apply F. apply (nth_In (x :: xs) d A).
      + rewrite Forall_forall in F. now apply F.
  Qed.
  Theorem C24_extreme_points_of_array : forall (pts : list (vec T)) d, pts <> [] -> (forall p, In p pts -> okv p) ->
    let '(minx, maxx, miny, maxy, minz, maxz) := AABB_ExtremePointsAlongAABB pts in
    (forall i, In i [minx; maxx; miny; maxy; minz; maxz] -> (i < length pts)%nat) /\
    forall p, In p pts ->
      nleb (vx (nth minx pts d)) (vx p) = true /\ nleb (vx p) (vx (nth maxx pts d)) = true /\
      nleb (vy (nth miny pts d)) (vy p) = true /\ nleb (vy p) (vy (nth maxy pts d)) = true /\
      nleb (vz (nth minz pts d)) (vz p) = true /\ nleb (vz p) (vz (nth maxz pts d)) = true.
  Proof.
    intros pts d N O. unfold AABB_ExtremePointsAlongAABB.
    assert (NM : forall f : vec T -> T, map f pts <> []) by (intros f; destruct pts; [congruence|discriminate]).
    assert (OX : Forall ok (map vx pts)) by (apply Forall_forall; intros x Hx; apply in_map_iff in Hx; destruct Hx as (p & <- & Hp); apply (O p Hp)).
    assert (OY : Forall ok (map vy pts)) by (apply Forall_forall; intros x Hx; apply in_map_iff in Hx; destruct Hx as (p & <- & Hp); apply (O p Hp)).
    assert (OZ : Forall ok (map vz pts)) by (apply Forall_forall; intros x Hx; apply in_map_iff in Hx; destruct Hx as (p & <- & Hp); apply (O p Hp)).
    destruct (argmin_spec _ (vx d) (NM vx) OX) as [A1 A2]. destruct (argmax_spec _ (vx d) (NM vx) OX) as [A3 A4].
    destruct (argmin_spec _ (vy d) (NM vy) OY) as [B1 B2]. destruct (argmax_spec _ (vy d) (NM vy) OY) as [B3 B4].
    destruct (argmin_spec _ (vz d) (NM vz) OZ) as [C1 C2]. destruct (argmax_spec _ (vz d) (NM vz) OZ) as [C3 C4].
    rewrite map_length in *. rewrite map_nth in A2, A4, B2, B4, C2, C4. split.
    - intros i Hi. cbn [In] in Hi. intuition (subst; assumption).
    - intros p Hp. repeat split; [apply A2|apply A4|apply B2|apply B4|apply C2|apply C4]; now apply in_map.
  Qed.
End Arg.
Print Assumptions C24_extreme_points_of_array.
Example C24_witness : box_ok (Box (V3 0 0 0) (V3 1 2 3)) /\ AABB_ExtremePoint (Box (V3 0 0 0) (V3 1 2 3)) (V3 (-1) 1 0) = V3 0 2 3 :> pt /\
  AABB_ExtremePointsAlongAABB [V3 1 2 3; V3 0 5 3; V3 4 2 1 : pt] = (1, 2, 0, 1, 2, 0)%nat.
Proof.
  split; [unfold box_ok; cbn; lra|]. unfold AABB_ExtremePoint, AABB_ExtremePointsAlongAABB. cbn [map argmin argmax argbest minPoint maxPoint vx vy vz]. rsimpl.
  split; repeat rcase; lra || reflexivity.
Qed.

(** ** C25 *)
(** The image of a point under a matrix: the specification's own product. *)
Definition apply3 (m : mat3 R) (p : pt) : pt := V3 (dot (row0 m) p) (dot (row1 m) p) (dot (row2 m) p).
Definition apply34 (m : mat34 R) (p : pt) : pt := plus (apply3 (lin34 m) p) (trans34 m).
Lemma tight_transform (b : aabb R) m t : box_ok b ->
  tight (fun q => exists p, in_box b p /\ q = plus (apply3 m p) t) (AABBTransformAsAABB b m (fun p => plus (apply3 m p) t)).
Proof.
  intros (L1&L2&L3). unfold AABBTransformAsAABB. toR. rsimpl. cbv zeta.
  set (mx := maxPoint b) in *. set (mn := minPoint b) in *.
  rewrite !Abs_R.
  (* one row: the projection interval *)
  assert (ROW : forall r tt, let c := scale (1/2) (plus mn mx) in let h := minus c mn in
     let e := Rabs (vx r * vx h) + Rabs (vy r * vy h) + Rabs (vz r * vz h) in
     (forall p, in_box b p -> dot r c + tt - e <= dot r p + tt <= dot r c + tt + e) /\
     (exists p, in_box b p /\ dot r p + tt = dot r c + tt - e) /\ (exists p, in_box b p /\ dot r p + tt = dot r c + tt + e)).
  { intros r tt c h e.
    assert (G : forall a l k, l <= k -> Rabs (a * (1/2 * (l + k) - l)) = (k - l) / 2 * Rabs a).
    { intros a l k H. replace (1/2 * (l + k) - l) with ((k - l) / 2) by field. rewrite Rabs_mult, (Rabs_pos_eq ((k - l) / 2)) by lra. ring. }
    assert (E : e = (vx mx - vx mn) / 2 * Rabs (vx r) + (vy mx - vy mn) / 2 * Rabs (vy r) + (vz mx - vz mn) / 2 * Rabs (vz r)).
    { unfold e, h, c, minus, scale, plus. cbn [vx vy vz]. rewrite !G by assumption. reflexivity. }
    pose proof (C24_project_to_axis b r (conj L1 (conj L2 L3))) as Pj. unfold AABB_ProjectToAxis in Pj. rewrite !Abs_R in Pj. toR. rsimpl. 
    fold mx mn in Pj. fold c in Pj.
    assert (E2 : Rabs (vx (minus mx c) * Rabs (vx r) + vy (minus mx c) * Rabs (vy r) + vz (minus mx c) * Rabs (vz r)) = e).
    { rewrite E. unfold c, minus, scale, plus. cbn [vx vy vz].
      replace (vx mx - 1/2 * (vx mn + vx mx)) with ((vx mx - vx mn) / 2) by field.
      replace (vy mx - 1/2 * (vy mn + vy mx)) with ((vy mx - vy mn) / 2) by field.
      replace (vz mx - 1/2 * (vz mn + vz mx)) with ((vz mx - vz mn) / 2) by field.
      apply Rabs_pos_eq.
      assert (Q : forall a l k, l <= k -> 0 <= (k - l) / 2 * Rabs a) by (intros; apply Rmult_le_pos; [lra|apply Rabs_pos]).
      pose proof (Q (vx r) _ _ L1). pose proof (Q (vy r) _ _ L2). pose proof (Q (vz r) _ _ L3). lra. }
    rewrite E2 in Pj. destruct Pj as (J1 & (p1 & I1 & J2) & (p2 & I2 & J3)).
    split; [intros p Hp; specialize (J1 p Hp); lra|]. split; [exists p1|exists p2]; (split; [assumption|lra]). }
  destruct (ROW (row0 m) (vx t)) as (A1 & A2 & A3). destruct (ROW (row1 m) (vy t)) as (B1 & B2 & B3). destruct (ROW (row2 m) (vz t)) as (C1 & C2 & C3).
  clear ROW. unfold tight. cbn [minPoint maxPoint].
  split; [|repeat split].
  - intros q (p & Hp & ->). specialize (A1 p Hp). specialize (B1 p Hp). specialize (C1 p Hp). unfold in_box. unfold apply3, plus, minus in *. cbn [vx vy vz minPoint maxPoint] in *. lra.
  - destruct A2 as (p & Hp & E). exists (plus (apply3 m p) t). split; [now exists p|]. unfold apply3, plus, minus in *. cbn [vx vy vz] in *. lra.
  - destruct A3 as (p & Hp & E). exists (plus (apply3 m p) t). split; [now exists p|]. unfold apply3, plus, minus in *. cbn [vx vy vz] in *. lra.
  - destruct B2 as (p & Hp & E). exists (plus (apply3 m p) t). split; [now exists p|]. unfold apply3, plus, minus in *. cbn [vx vy vz] in *. lra.
  - destruct B3 as (p & Hp & E). exists (plus (apply3 m p) t). split; [now exists p|]. unfold apply3, plus, minus in *. cbn [vx vy vz] in *. lra.
  - destruct C2 as (p & Hp & E). exists (plus (apply3 m p) t). split; [now exists p|]. unfold apply3, plus, minus in *. cbn [vx vy vz] in *. lra.
  - destruct C3 as (p & Hp & E). exists (plus (apply3 m p) t). split; [now exists p|]. unfold apply3, plus, minus in *. cbn [vx vy vz] in *. lra.
Qed.
Lemma tight_box_ok (S : pt -> Prop) b : (exists p, S p) -> tight S b -> box_ok b.
Proof. intros (p & Sp) (I & _). specialize (I p Sp). unfold in_box, box_ok in *. lra. Qed.
(** For every matrix (no orthogonality needed): the new box is the smallest box containing the image. *)
Theorem C25_transform : forall (b : aabb R) (m : mat34 R), box_ok b ->
  (forall p, in_box b p -> in_box (AABB_TransformAsAABB34 b m) (apply34 m p) /\ in_box (AABB_TransformAsAABB3 b (lin34 m)) (apply3 (lin34 m) p)) /\
  (forall c, (forall p, in_box b p -> in_box c (apply34 m p)) -> forall q, in_box (AABB_TransformAsAABB34 b m) q -> in_box c q) /\
  (forall c, (forall p, in_box b p -> in_box c (apply3 (lin34 m) p)) -> forall q, in_box (AABB_TransformAsAABB3 b (lin34 m)) q -> in_box c q).
Proof.
  intros b m K.
  assert (NE : exists p, in_box b p) by (exists (minPoint b); unfold in_box, box_ok in *; lra).
  pose proof (tight_transform b (lin34 m) (trans34 m) K) as T1. pose proof (tight_transform b (lin34 m) origin K) as T2.
  assert (E1 : AABB_TransformAsAABB34 b m = AABBTransformAsAABB b (lin34 m) (fun p => plus (apply3 (lin34 m) p) (trans34 m))) by reflexivity.
  assert (E2 : AABB_TransformAsAABB3 b (lin34 m) = AABBTransformAsAABB b (lin34 m) (fun p => plus (apply3 (lin34 m) p) origin)).
  { unfold AABB_TransformAsAABB3, AABBTransformAsAABB. cbv zeta. toR.
    replace (mulv (lin34 m) (scale nhalf (plus (minPoint b) (maxPoint b)))) with (plus (apply3 (lin34 m) (scale nhalf (plus (minPoint b) (maxPoint b)))) origin); [reflexivity|].
    unfold mulv, apply3, plus, origin. cbn [vx vy vz]. toR. f_equal; ring. }
  assert (PO : forall p, plus p origin = p) by (intros; apply vec_ext; cbn; ring).
  rewrite E1, E2. split; [|split].
  - intros p Hp. split; [apply T1; now exists p|]. rewrite <- (PO (apply3 (lin34 m) p)). apply T2. now exists p.
  - intros c H q Hq. apply inside_R. eapply within_inside; [|apply inside_R, Hq].
    apply (tight_within _ _ c T1). intros r (p & Hp & ->). now apply H.
  - intros c H q Hq. apply inside_R. eapply within_inside; [|apply inside_R, Hq].
    apply (tight_within _ _ c T2). intros r (p & Hp & ->). rewrite PO. now apply H.
Qed.
Print Assumptions C25_transform.
(** Translate and scale move the box's points. *)
Theorem C25_translate_scale : forall (b : aabb R) off c s p, 0 < s ->
  (in_box (AABB_Translate b off) (plus p off) <-> in_box b p) /\
  (in_box (AABB_Scale b c s) (plus c (scale s (minus p c))) <-> in_box b p).
Proof.
  intros b off c s p Hs. unfold AABB_Translate, AABB_Scale, in_box. vunf. unfold plus, scale, minus. cbn [minPoint maxPoint vx vy vz].
  assert (G : forall x y k, (x - k) * s + k <= k + s * (y - k) <-> x <= y) by (intros; split; nra).
  assert (G' : forall x y k, k + s * (x - k) <= (y - k) * s + k <-> x <= y) by (intros; split; nra).
  rewrite !G, !G'. intuition lra.
Qed.
Print Assumptions C25_translate_scale.
Example C25_witness : box_ok (Box (V3 (-1) 0 2) (V3 1 3 2)) /\
  apply34 (M34 (M3 (V3 0 (-1) 0) (V3 1 0 0) (V3 0 0 1)) (V3 1 1 1)) (V3 1 3 2) = V3 (-2) 2 3.
Proof. split; [unfold box_ok; cbn; lra|]. apply vec_ext; unfold apply34, apply3, dot; cbn; ring. Qed.
