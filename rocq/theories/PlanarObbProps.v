(** C108: the enclosing boxes of flat point sets. *)
From Coq Require Import Reals Lra Psatz Bool List Lia PeanoNat.
From Verif Require Import Num NumR ScalarModel ScalarProofs Vec2Model Vec2Spec Vec2Props HullModel HullSpec HullProofs HullProofs2 HullProps2 MinRectModel MinRectSpec MinRectProofs MinRectProofs2 MinRectProofs3 MinRectProps
  Vec3Model GeoTypes GeoSpec GeoLemmas Vec3Props AabbSpec AabbProofs MatSpec MatProofs MatProofs2 PlaneProps ObbModel ObbProps ObbProps7 PlanarObbModel PlanarObbProofs.
Import ListNotations.
Open Scope R_scope.
Ltac Zify.zify_post_hook ::= idtac.

Lemma Normalized_any_unit (v : pt) : unitv (Normalized v).
Proof.
  destruct (Rlt_le_dec (1/1000000) (norm v)) as [L|L].
  - rewrite Normalized_R by exact L. unfold unitv. rewrite dot_scale_l, dot_scale_r, <- norm_sq. field. lra.
  - unfold Normalized, Normalize. change (Length v) with (norm v). cbv zeta. rsimpl. rewrite (proj2 (Rltb_false _ _)) by exact L. cbn [fst]. unfold unitv, dot. cbn. ring.
Qed.
Lemma Normalize_split (v : pt) : Normalize v = (Normalized v, if Rltb (1/1000000) (norm v) then norm v else 0).
Proof. unfold Normalized, Normalize. change (Length v) with (norm v). cbv zeta. rsimpl. destruct (Rltb (1/1000000) (norm v)); reflexivity. Qed.
(** ** The accumulated normal *)
(** Some three consecutive points span more than 1e-6. *)
Definition spread (pts : list pt) : Prop := exists l1 a b c l2, pts = l1 ++ a :: b :: c :: l2 /\ 1 / 1000000 < norm (cross (minus c a) (minus c b)).
Lemma normal_cons (acc a b c : pt) l : planarNormal acc (a :: b :: c :: l) = let x := cross (minus c a) (minus c b) in
  planarNormal (if Rltb (1/1000000) (norm x) then Normalized (if Rleb 0 (dot acc (Normalized x)) then plus acc (Normalized x) else minus acc (Normalized x)) else acc) (b :: c :: l).
Proof.
  cbv zeta. cbn [planarNormal]. change (Cross (vsub c a) (vsub c b)) with (cross (minus c a) (minus c b)). set (x := cross (minus c a) (minus c b)). rewrite Normalize_split. rsimpl.
  destruct (Rltb_spec (1/1000000) (norm x)) as [L|L].
  - rewrite (proj2 (Rltb_true _ _)) by lra. reflexivity.
  - rewrite (proj2 (Rltb_false _ _)) by lra. reflexivity.
Qed.
Lemma normal_keeps l : forall acc : pt, unitv acc -> unitv (planarNormal acc l).
Proof.
  induction l as [|a l IH]; intros acc U; [exact U|]. destruct l as [|b [|c l]]; [exact U|exact U|]. rewrite normal_cons. cbv zeta. apply IH. destruct (Rltb _ _); [apply Normalized_any_unit|exact U].
Qed.
Lemma normal_unit pts : spread pts -> forall acc : pt, unitv (planarNormal acc pts).
Proof.
  intros (l1 & a & b & c & l2 & -> & N). induction l1 as [|x l1 IH]; intros acc.
  - cbn [app]. rewrite normal_cons. cbv zeta. rewrite (proj2 (Rltb_true _ _)) by exact N. apply normal_keeps, Normalized_any_unit.
  - cbn [app]. destruct l1 as [|y [|z l1]]; cbn [app] in *; rewrite normal_cons; cbv zeta; apply IH.
Qed.
Definition coplanar (n : pt) (pts : list pt) : Prop := forall p q, In p pts -> In q pts -> dot n (minus p q) = 0.
Lemma cross_parallel n a b : unitv n -> dot n a = 0 -> dot n b = 0 -> cross a b = scale (dot n (cross a b)) n.
Proof.
  intros U A B. set (c := cross a b).
  assert (E : vy n * vz c - vz n * vy c = 0 /\ vz n * vx c - vx n * vz c = 0 /\ vx n * vy c - vy n * vx c = 0).
  { unfold c, cross. cbn [vx vy vz]. unfold dot in A, B. repeat split.
    - transitivity ((vx n * vx b + vy n * vy b + vz n * vz b) * vx a - (vx n * vx a + vy n * vy a + vz n * vz a) * vx b); [ring|]. rewrite A, B. ring.
    - transitivity ((vx n * vx b + vy n * vy b + vz n * vz b) * vy a - (vx n * vx a + vy n * vy a + vz n * vz a) * vy b); [ring|]. rewrite A, B. ring.
    - transitivity ((vx n * vx b + vy n * vy b + vz n * vz b) * vz a - (vx n * vx a + vy n * vy a + vz n * vz a) * vz b); [ring|]. rewrite A, B. ring. }
  destruct E as (E1 & E2 & E3). clearbody c. unfold unitv, dot in *. apply vec_ext; unfold scale; cbn [vx vy vz].
  - transitivity ((vx n * vx n + vy n * vy n + vz n * vz n) * vx c); [rewrite U; ring|]. transitivity ((vx n * vx c + vy n * vy c + vz n * vz c) * vx n + vz n * (vz n * vx c - vx n * vz c) - vy n * (vx n * vy c - vy n * vx c)); [ring|]. rewrite E2, E3. ring.
  - transitivity ((vx n * vx n + vy n * vy n + vz n * vz n) * vy c); [rewrite U; ring|]. transitivity ((vx n * vx c + vy n * vy c + vz n * vz c) * vy n + vx n * (vx n * vy c - vy n * vx c) - vz n * (vy n * vz c - vz n * vy c)); [ring|]. rewrite E1, E3. ring.
  - transitivity ((vx n * vx n + vy n * vy n + vz n * vz n) * vz c); [rewrite U; ring|]. transitivity ((vx n * vx c + vy n * vy c + vz n * vz c) * vz n + vy n * (vy n * vz c - vz n * vy c) - vx n * (vz n * vx c - vx n * vz c)); [ring|]. rewrite E1, E2. ring.
Qed.
Definition pm (n v : pt) : Prop := v = n \/ v = scale (-1) n.
Lemma pm_unit n v : unitv n -> pm n v -> unitv v.
Proof. intros U [->| ->]; [exact U|]. unfold unitv in *. rewrite dot_scale_l, dot_scale_r, U. ring. Qed.
Lemma pm_normalized n k : unitv n -> 1 / 1000000 < norm (scale k n) -> pm n (Normalized (scale k n)).
Proof.
  intros U L. assert (N : norm (scale k n) = Rabs k) by (rewrite norm_scale; unfold norm; rewrite U, sqrt_1; ring). rewrite Normalized_R by exact L. rewrite N in *.
  assert (S : forall j, scale j (scale k n) = scale (j * k) n) by (intros; apply vec_ext; unfold scale; cbn; ring). rewrite S. unfold Rabs in *. destruct (Rcase_abs k) as [Q|Q].
  - right. f_equal. field. lra.
  - left. replace (/ k * k) with 1 by (field; lra). apply scale_1.
Qed.
Lemma normal_pm n pts : unitv n -> coplanar n pts -> forall acc, acc = origin \/ pm n acc -> planarNormal acc pts = origin \/ pm n (planarNormal acc pts).
Proof.
  intros U. induction pts as [|a l IH]; intros C acc A; [exact A|]. destruct l as [|b [|c l]]; [exact A|exact A|]. rewrite normal_cons. cbv zeta. apply IH; [intros p q P Q; apply C; now right|].
  set (x := cross (minus c a) (minus c b)). destruct (Rltb_spec (1/1000000) (norm x)) as [L|L]; [|exact A].
  assert (X : x = scale (dot n x) n) by (apply cross_parallel; [exact U|apply C; cbn; auto|apply C; cbn; auto]).
  assert (P : pm n (Normalized x)) by (rewrite X; apply pm_normalized; [exact U|rewrite <- X; exact L]). set (w := Normalized x) in *. clearbody w. right.
  assert (Uw := pm_unit n w U P).
  assert (DW : dot w w = 1) by exact Uw.
  assert (Cases : acc = origin \/ acc = w \/ acc = scale (-1) w).
  { destruct A as [A|[A|A]]; [now left| |]; right; destruct P as [P|P]; subst; [left; reflexivity|right|right; reflexivity|left; reflexivity]. apply vec_ext; unfold scale; cbn; ring. }
  assert (N1 : Normalized w = w) by (now apply Normalized_unit). assert (U2 : unitv (scale (-1) w)) by (unfold unitv; rewrite dot_scale_l, dot_scale_r, Uw; ring).
  assert (PN : pm n (scale (-1) w)) by (destruct P as [->| ->]; [right; reflexivity|left; apply vec_ext; unfold scale; cbn; ring]).
  assert (N2 : forall k, 1 <= k -> forall z, unitv z -> Normalized (scale k z) = z).
  { intros k K z Z. assert (NK : norm (scale k z) = k) by (rewrite norm_scale; unfold norm; rewrite Z, sqrt_1, Rabs_pos_eq by lra; ring). rewrite Normalized_R by lra. rewrite NK. apply vec_ext; unfold scale; cbn; field; lra. }
  destruct Cases as [->|[->| ->]].
  - assert (D : dot origin w = 0) by (unfold dot, origin; cbn; ring). rewrite D. rewrite (proj2 (Rleb_true _ _)) by lra. replace (plus origin w) with w by (apply vec_ext; unfold plus, origin; cbn; ring). rewrite N1. exact P.
  - rewrite DW, (proj2 (Rleb_true _ _)) by lra. replace (plus w w) with (scale 2 w) by (apply vec_ext; unfold plus, scale; cbn; ring). rewrite N2; [exact P|lra|exact Uw].
  - rewrite dot_scale_l, DW, (proj2 (Rleb_false _ _)) by lra. replace (minus (scale (-1) w) w) with (scale 2 (scale (-1) w)) by (apply vec_ext; unfold minus, scale; cbn; ring). rewrite N2; [exact PN|lra|exact U2].
Qed.
(** ** The rounds *)
Lemma jig_step fuel (pts : list pt) (s : jiggle) u v m r : pts <> [] -> PerpendicularBasis (jedge s) = (u, v) -> frame3 u v m -> MinAreaRectInPlace fuel (map (prj u v) pts) = Some r ->
  exists vol, 0 <= vol /\ (coplanar (jedge s) pts -> vol = 0) /\
    jiggleStep fuel pts s = Some (if match jbest s with None => true | Some b => Rltb vol b end then Jig (lift u v (ru r)) 0 (Some vol) (lift u v (rv r)) (jedge s) (lift u v (ru r))
                                  else Jig (jsecond s) (S (jmiss s)) (jbest s) (jsecond s) (joutA s) (joutB s)).
Proof.
  intros N B F M. destruct (extreme_some (jedge s) pts N) as (i & j & lo & hi & E). destruct (rect_orthonormal _ _ _ M) as (U1 & U2 & O).
  unfold jiggleStep. rewrite E, B, planarPts_R, M. cbv zeta. change (@planarLift R Num_R) with lift.
  change (fst (Normalize (lift u v (ru r)))) with (Normalized (lift u v (ru r))). change (fst (Normalize (lift u v (rv r)))) with (Normalized (lift u v (rv r))).
  rewrite (Normalized_unit (lift u v (ru r))) by (unfold unitv; rewrite (lift_lift u v m F); exact U1). rewrite (Normalized_unit (lift u v (rv r))) by (unfold unitv; rewrite (lift_lift u v m F); exact U2).
  rewrite Abs_R. rsimpl.
  match goal with |- context [Some (if _ then Jig _ 0 (Some ?V) _ _ _ else _)] => set (vol := V) end || match goal with |- context [Jig _ 0 (Some ?V) _ _ _] => set (vol := V) end.
  exists vol. split; [|split].
  - unfold vol. apply Rmult_le_pos; [apply Rmult_le_pos; apply norm_pos|apply Rabs_pos].
  - intros C. unfold vol. destruct (proj2 (extreme_tight _ _ _ _ _ _ E)) as (a & b & NA & NB & _). rewrite (nth_error_nth _ _ _ NA), (nth_error_nth _ _ _ NB).
    change (Dot (vsub a b) (jedge s)) with (dot (minus a b) (jedge s)). rewrite dot_comm, (C a b) by (eapply nth_error_In; eassumption). rewrite Rabs_R0. ring.
  - clearbody vol. destruct (jbest s) as [b|]; [|reflexivity]. destruct (Rltb vol b); reflexivity.
Qed.
(** ** Any output encloses the points *)
Definition jinv (s : @jiggle R) : Prop := unitv (jedge s) /\ match jbest s with None => jmiss s = 0%nat | Some _ => unitv (jsecond s) /\ unitv (joutA s) /\ unitv (joutB s) /\ orth (joutA s) (joutB s) end.
Lemma jinv_step fuel pts s s' : jinv s -> jiggleStep fuel pts s = Some s' -> jinv s' /\ jbest s' <> None.
Proof.
  intros [U I] E. assert (N : pts <> []) by (intros ->; discriminate E). destruct (PerpendicularBasis (jedge s)) as [u v] eqn:B. pose proof (basis_frame (jedge s) U) as F. rewrite B in F. cbn [fst snd] in F.
  assert (M : exists r, MinAreaRectInPlace fuel (map (prj u v) pts) = Some r).
  { unfold jiggleStep in E. destruct (extreme_some (jedge s) pts N) as (i & j & lo & hi & X). rewrite X, B, planarPts_R in E. destruct (MinAreaRectInPlace fuel (map (prj u v) pts)) as [r|]; [exists r; reflexivity|discriminate]. }
  destruct M as (r & M). destruct (rect_orthonormal _ _ _ M) as (U1 & U2 & _). destruct (jig_step fuel pts s u v (jedge s) r N B F M) as (vol & _ & _ & J). rewrite J in E. injection E as <-.
  assert (L1 : unitv (lift u v (ru r))) by (unfold unitv; rewrite (lift_lift u v _ F); exact U1). assert (L2 : unitv (lift u v (rv r))) by (unfold unitv; rewrite (lift_lift u v _ F); exact U2). pose proof (lift_m u v _ F (ru r)) as LM.
  unfold jinv. destruct (jbest s) as [b|] eqn:JB.
  - destruct (Rltb vol b); cbn [jedge jmiss jbest jsecond joutA joutB].
    + split; [|discriminate]. split; [exact L1|]. auto.
    + rewrite ?JB. split; [|discriminate]. destruct I as (I1 & I2 & I3 & I4). auto.
  - cbn [jedge jmiss jbest jsecond joutA joutB]. split; [|discriminate]. split; [exact L1|]. auto.
Qed.
Lemma jinv_loop fuel pts : forall rounds s vol a b, jinv s -> jiggleLoop rounds fuel pts s = Some (vol, a, b) -> unitv a /\ unitv b /\ orth a b.
Proof.
  induction rounds as [|k IH]; intros s vol a b I E; cbn [jiggleLoop] in E; destruct (Nat.leb_spec (jmiss s) 1) as [L|L]; try discriminate.
  - injection E as E1 E2 E3. destruct I as [_ I]. destruct (jbest s); [|lia]. subst. tauto.
  - destruct (jiggleStep fuel pts s) as [s'|] eqn:S; [|discriminate]. apply (IH s' vol a b); [|exact E]. now apply (jinv_step fuel pts s s').
  - injection E as E1 E2 E3. destruct I as [_ I]. destruct (jbest s); [|lia]. subst. tauto.
Qed.
Theorem C108_encloses (rounds fuel : nat) (pts : list pt) (o : obb R) : spread pts -> SmallestOBBVolume2DPlanar rounds fuel pts = Some o -> framed o /\ obb_ok o /\ forall p, In p pts -> in_obb o p.
Proof.
  intros S E. unfold SmallestOBBVolume2DPlanar, SmallestOBBVolumeJiggle in E. destruct (jiggleLoop _ _ _ _) as [[[vol a] b]|] eqn:J; [|discriminate].
  assert (H : unitv a /\ unitv b /\ orth a b). { apply (jinv_loop fuel pts rounds _ vol a b) in J; [exact J|]. split; [apply normal_unit; exact S|reflexivity]. }
  destruct H as (A & B & O). pose proof (C51_fixed_orientation pts a b A B O) as FO. rewrite E in FO. destruct FO as (F1 & F2 & _ & _ & F3 & _). auto.
Qed.
Print Assumptions C108_encloses.
(** ** Points of a plane *)
Definition apart3 (pts : list pt) : Prop := forall p q, In p pts -> In q pts -> p <> q -> 1 / 1000 < dist p q.
Lemma flat_apart u v m pts : frame3 u v m -> coplanar m pts -> apart3 pts -> forall a b, In a (map (prj u v) pts) -> In b (map (prj u v) pts) -> a <> b -> 1 / 1000 < dst a b.
Proof.
  intros F C A a b IA IB N. apply in_map_iff in IA, IB. destruct IA as (p & <- & P). destruct IB as (q & <- & Q). assert (PQ : p <> q) by (intros ->; now apply N). specialize (A p q P Q PQ).
  replace (dst (prj u v p) (prj u v q)) with (dist p q); [exact A|]. unfold dist, norm, dst, nrm. f_equal. rewrite <- (prj_dt u v m F) by (now apply C).
  unfold prj, mi, dt. cbn [x2 y2]. rewrite !dot_minus_r. reflexivity.
Qed.
Lemma flat_line u v m n pts : frame3 u v m -> unitv n -> dot m n = 0 -> coplanar n pts -> collinear (map (prj u v) pts).
Proof.
  intros F U O C a b c IA IB IC. apply in_map_iff in IA, IB, IC. destruct IA as (p & <- & P). destruct IB as (q & <- & Q). destruct IC as (r & <- & RR).
  set (w := prj u v n). assert (W : dt w w = 1) by (unfold w; rewrite (prj_dt u v m F) by exact O; exact U).
  assert (Z : forall x y, In x pts -> In y pts -> dt w (mi (prj u v x) (prj u v y)) = 0).
  { intros x y X Y. specialize (C x y X Y). rewrite dot_minus_r in C. unfold w. assert (E : dt (prj u v n) (mi (prj u v x) (prj u v y)) = dt (prj u v n) (prj u v x) - dt (prj u v n) (prj u v y)) by (unfold mi, dt; cbn [x2 y2]; ring). rewrite E, !(prj_dt u v m F) by exact O. lra. }
  pose proof (Z q p Q P) as Z1. pose proof (Z r p RR P) as Z2. unfold turn. set (g := mi (prj u v q) (prj u v p)) in *. set (h := mi (prj u v r) (prj u v p)) in *. clearbody w g h. clear - W Z1 Z2. unfold dt, area2 in *.
  transitivity ((x2 w * x2 w + y2 w * y2 w) * (x2 g * y2 h - y2 g * x2 h)); [rewrite W; ring|].
  transitivity ((x2 w * x2 g + y2 w * y2 g) * (x2 w * y2 h - y2 w * x2 h) - (x2 w * x2 h + y2 w * y2 h) * (x2 w * y2 g - y2 w * x2 g)); [ring|]. rewrite Z1, Z2. ring.
Qed.
Lemma coplanar_pm n m pts : pm n m -> coplanar n pts -> coplanar m pts.
Proof. intros [->| ->] C p q P Q; [now apply C|]. rewrite dot_scale_l, (C p q P Q). ring. Qed.
Lemma Rltb_nonneg x : 0 <= x -> Rltb x 0 = false. Proof. intros. apply Rltb_false. lra. Qed.
(** After a round of volume 0 two more rounds end the loop. *)
Lemma jig_end rounds fuel pts m f s : pts <> [] -> (8 < fuel)%nat -> unitv m -> coplanar m pts -> unitv f -> unitv s -> dot m f = 0 -> dot m s = 0 -> (2 <= rounds)%nat -> forall a b,
  jiggleLoop rounds fuel pts (Jig f 0 (Some 0) s a b) = Some (Some 0, a, b).
Proof.
  intros N FU UM C UF US MF MS R a b. destruct rounds as [|[|k]]; [lia|lia|].
  assert (Rect : forall x, unitv x -> dot m x = 0 -> exists r, MinAreaRectInPlace fuel (map (prj (fst (PerpendicularBasis x)) (snd (PerpendicularBasis x))) pts) = Some r).
  { intros x UX MX. apply rect_line; [destruct pts; [contradiction|discriminate]| |exact FU]. apply (flat_line _ _ x m); [now apply basis_frame|exact UM|rewrite dot_comm; exact MX|exact C]. }
  assert (Step : forall x j, unitv x -> dot m x = 0 -> jiggleStep fuel pts (Jig x j (Some 0) s a b) = Some (Jig s (S j) (Some 0) s a b)).
  { intros x j UX MX. destruct (Rect x UX MX) as (r & E). pose proof (basis_frame x UX) as F. destruct (PerpendicularBasis x) as [u v] eqn:B. cbn [fst snd] in *.
    destruct (jig_step fuel pts (Jig x j (Some 0) s a b) u v x r N B F E) as (vol & V & _ & J). rewrite J. cbn [jbest jsecond jmiss joutA joutB]. rewrite (Rltb_nonneg vol V). reflexivity. }
  cbn [jiggleLoop jmiss Nat.leb]. rewrite (Step f 0%nat UF MF). cbn [jiggleLoop jmiss Nat.leb]. rewrite (Step s 1%nat US MS). destruct k; reflexivity.
Qed.
Lemma spread_len pts : spread pts -> (3 <= length pts)%nat.
Proof. intros (l1 & a & b & c & l2 & -> & _). rewrite app_length. cbn. lia. Qed.
(** Distinct points of a plane, 1e-3 apart: the search ends, the box is flat, encloses the points, and no box lying in the plane is smaller. *)
Theorem C108_planar (rounds fuel : nat) (n : pt) (pts : list pt) : unitv n -> coplanar n pts -> apart3 pts -> spread pts -> (3 <= rounds)%nat -> (4 * length pts < fuel)%nat ->
  exists o, SmallestOBBVolume2DPlanar rounds fuel pts = Some o /\ framed o /\ obb_ok o /\ pm n (oaxis0 o) /\ vx (orad o) = 0 /\ (forall p, In p pts -> in_obb o p) /\
    forall o', framed o' -> obb_ok o' -> oaxis0 o' = oaxis0 o -> (forall p, In p pts -> in_obb o' p) -> vy (orad o) * vz (orad o) <= vy (orad o') * vz (orad o').
Proof.
  intros U C A S RN FU. pose proof (spread_len pts S) as LEN. assert (N : pts <> []) by (intros ->; cbn in LEN; lia).
  assert (PM : pm n (planarNormal origin pts)). { destruct (normal_pm n pts U C origin (or_introl eq_refl)) as [Z|P]; [|exact P]. pose proof (normal_unit pts S origin) as X. rewrite Z in X. unfold unitv, dot, origin in X. cbn in X. lra. }
  unfold SmallestOBBVolume2DPlanar, SmallestOBBVolumeJiggle. change (V3 n0 n0 n0) with origin. set (m := planarNormal origin pts) in *. clearbody m.
  assert (UM := pm_unit n m U PM). assert (CM := coplanar_pm n m pts PM C). pose proof (basis_frame m UM) as F. destruct (PerpendicularBasis m) as [u v] eqn:B. cbn [fst snd] in F.
  destruct (C107_smallest (map (prj u v) pts) fuel) as (r & E & SR); [destruct pts; [contradiction|discriminate]|now apply (flat_apart u v m)|rewrite map_length; exact FU|].
  destruct rounds as [|k]; [lia|]. cbn [jiggleLoop jmiss Nat.leb].
  destruct (jig_step fuel pts (Jig m 0 None origin origin origin) u v m r N B F E) as (vol & _ & V0 & J). rewrite J. cbn [jbest jedge]. rewrite (V0 CM).
  destruct SR as (U1 & U2 & O & BX & (TU1 & TU2 & TV1 & TV2) & AR & _ & _ & L).
  set (f := lift u v (ru r)) in *. set (s := lift u v (rv r)) in *.
  assert (UF : unitv f) by (unfold unitv, f; rewrite (lift_lift u v m F); exact U1). assert (US : unitv s) by (unfold unitv, s; rewrite (lift_lift u v m F); exact U2).
  assert (MF : dot m f = 0) by apply (lift_m u v m F). assert (MS : dot m s = 0) by apply (lift_m u v m F). assert (FS : dot f s = 0) by (unfold f, s; rewrite (lift_lift u v m F); exact O).
  rewrite (jig_end k fuel pts m f s N) by (try assumption; lia).
  destruct (fixed_sizes pts m f N UM UF MF) as (o & EO & AX & SX & SY & SZ). exists o. split; [exact EO|].
  pose proof (C51_fixed_orientation pts m f UM UF MF) as FO. rewrite EO in FO. destruct FO as (F1 & F2 & A0 & A1 & F3 & _). split; [exact F1|]. split; [exact F2|]. split; [rewrite A0; exact PM|].
  (* the sizes *)
  assert (PF : forall p, dot p f = dt (ru r) (prj u v p)) by (intros; apply lift_dot). assert (PS : forall p, dot p s = dt (rv r) (prj u v p)) by (intros; apply lift_dot).
  assert (Lift : forall (d : p2) (z : R), (exists q, In q (map (prj u v) pts) /\ dt d q = z) -> exists p, In p pts /\ dt d (prj u v p) = z). { intros d z (q & Q & Z). apply in_map_iff in Q. destruct Q as (p & <- & P). now exists p. }
  assert (TF : tight f pts (rminU r) (rmaxU r)).
  { split; [intros p P; rewrite PF; apply (BX (prj u v p)), in_map, P|]. split; [destruct (Lift _ _ TU1) as (p & P & Z)|destruct (Lift _ _ TU2) as (p & P & Z)]; exists p; rewrite PF; auto. }
  assert (TS : tight s pts (rminV r) (rmaxV r)).
  { split; [intros p P; rewrite PS; apply (BX (prj u v p)), in_map, P|]. split; [destruct (Lift _ _ TV1) as (p & P & Z)|destruct (Lift _ _ TV2) as (p & P & Z)]; exists p; rewrite PS; auto. }
  assert (CR : cross m f = s \/ cross m f = scale (-1) s).
  { assert (X : cross m f = scale (dot s (cross m f)) s) by (apply cross_parallel; [exact US|rewrite dot_comm; exact MS|rewrite dot_comm; exact FS]). assert (Q : dot s (cross m f) * dot s (cross m f) = 1).
    { assert (Y : dot (cross m f) (cross m f) = 1) by (rewrite cross_sq; unfold unitv in *; rewrite UM, UF, MF; ring). rewrite X in Y. rewrite dot_scale_l, dot_scale_r, US in Y. lra. }
    assert (K : dot s (cross m f) = 1 \/ dot s (cross m f) = -1). { assert (Z : (dot s (cross m f) - 1) * (dot s (cross m f) + 1) = 0) by lra. destruct (Rmult_integral _ _ Z); [left|right]; lra. }
    destruct K as [K|K]; rewrite K in X; [left; rewrite X; apply scale_1|right; exact X]. }
  assert (TC : exists lo hi, tight (cross m f) pts lo hi /\ hi - lo = rmaxV r - rminV r).
  { destruct CR as [-> | ->]; [exists (rminV r), (rmaxV r); split; [exact TS|ring]|]. exists (- rmaxV r), (- rminV r). split; [|ring]. destruct TS as (T1 & (p & P & P1) & (q & Q & Q1)).
    split; [intros x X; rewrite dot_scale_r; specialize (T1 x X); lra|]. split; [exists q; rewrite dot_scale_r; split; [exact Q|lra]|exists p; rewrite dot_scale_r; split; [exact P|lra]]. }
  destruct TC as (lo & hi & TC & TW).
  assert (TM : exists z, tight m pts z z). { destruct pts as [|p0 pts']; [contradiction|]. exists (dot p0 m). split; [intros p P; specialize (CM p p0 P (or_introl eq_refl)); rewrite dot_minus_r, (dot_comm m p), (dot_comm m p0) in CM; lra|]. split; exists p0; split; try reflexivity; now left. }
  destruct TM as (z & TM). specialize (SX _ _ TM). specialize (SY _ _ TF). specialize (SZ _ _ TC). split; [lra|]. split; [exact F3|].
  intros o' F1' OK' A0' IN'. rewrite A0 in A0'. pose proof F1' as (G0 & G1 & G2 & G3 & G4 & G5). rewrite A0' in G3, G4.
  assert (H : rarea r <= 2 * vy (orad o') * (2 * vz (orad o'))).
  { apply (box_area u v m F r pts (oaxis1 o') (oaxis2 o') (dot (opos o') (oaxis1 o')) (dot (opos o') (oaxis2 o')) (vy (orad o')) (vz (orad o')) L); try assumption.
    intros p P. specialize (IN' p P). apply (in_obb_crd o' p F1') in IN'. destruct IN' as (_ & I1 & I2). unfold within_r, crd1, crd2 in *. rewrite dot_minus_l in I1, I2. lra. }
  rewrite AR in H. rewrite <- SY, <- TW, <- SZ in H. lra.
Qed.
Print Assumptions C108_planar.
