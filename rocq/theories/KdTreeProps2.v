(** Property C56 in exact arithmetic: the ray query finds every object the ray passes through, when the ray avoids the two
    situations refuted in KdTreeProps.v. *)
From Coq Require Import Reals Lra ZArith Bool List Lia.
From Verif Require Import Num NumR XNum ScalarModel Vec3Model GeoTypes GeoSpec AabbModel AabbSpec AabbProofs KdTreeModel KdTreeSpec KdTreeProofs KdRayProofs KdRayExact.
Import ListNotations.
Ltac Zify.zify_post_hook ::= idtac.
Local Open Scope R_scope.

(** The split planes of a tree: node n splits axis ax at coordinate s. *)
Definition splits (k : kd xr) (n ax : nat) (s : R) : Prop := exists c, nth_error (nodes k) n = Some (NInner ax (X s) c).
(** The point at parameter t of a ray, and the parameter at which it crosses a plane. *)
Definition ray_at (r : ray R) (t : R) : pt := plus (rpos r) (scale t (rdir r)).
Definition crosses (r : ray R) (ax : nat) (s : R) : R := (s - at3 (rpos r) ax) / at3 (rdir r) ax.
(** No direction component is below the code's tolerance. *)
Definition oblique (r : ray R) : Prop := forall ax, 1/10000 <= Rabs (at3 (rdir r) ax).
(** Where the ray crosses one split plane it is not less than 1e-4 beyond another one ("case Z1"). *)
Definition clear_of_Z1 (k : kd xr) (r : ray R) : Prop := forall n ax s m ax' s', splits k n ax s -> splits k m ax' s' ->
  ~ (s < at3 (ray_at r (crosses r ax' s')) ax < s + 1/10000).
(** The point of the ray at t is on no split plane, or only on planes passing through the inside of box O, or is away from the
    start and on one plane only. *)
Definition general_position (k : kd xr) (r : ray R) (O : aabb R) (t : R) : Prop := forall n ax s, splits k n ax s -> at3 (ray_at r t) ax = s ->
  at3 (minPoint O) ax < s < at3 (maxPoint O) ax \/ (0 < t /\ forall m ax' s', splits k m ax' s' -> m <> n -> at3 (ray_at r t) ax' <> s').

Lemma ray_at_at r t ax : at3 (ray_at r t) ax = at3 (rpos r) ax + t * at3 (rdir r) ax.
Proof. destruct ax as [|[|ax]]; reflexivity. Qed.
Lemma in_box_at b q : in_box b q -> forall ax, at3 (minPoint b) ax <= at3 q ax <= at3 (maxPoint b) ax.
Proof. intros (?&?&?) [|[|ax]]; assumption. Qed.
Lemma until_never {A} (l : list A) : forall d x, In x (until (fun _ => false) l d) -> In x l \/ In x d.
Proof. induction l as [|y l IH]; cbn; intros d x H; [now right|]. apply IH in H. cbn in H. tauto. Qed.

(** Missing from the full claim: the code computes in binary32, and the two refuted situations are excluded by hypothesis. *)
Theorem C56_ray_query_complete_partial (objs : list (aabb R)) k (r : ray R) :
  Build (map xbox objs) = Some k -> oblique r -> clear_of_Z1 k r ->
  exists full, (forall stop fuel, (length (nodes k) <= fuel)%nat -> RayQuery fuel k (xray r) stop = Done (until stop full [])) /\
    forall o O t, nth_error objs o = Some O -> 0 <= t -> in_box O (ray_at r t) -> general_position k r O t ->
      exists j near far os, In (j, near, far) full /\ leaf_objects k j os /\ In o os /\ xle near (X t) /\ xle (X t) far.
Proof.
  intros E Ob Z1.
  assert (Hok : forall o O, nth_error (map xbox objs) o = Some O -> okb O).
  { intros o O EO. rewrite nth_error_map in EO. destruct (nth_error objs o) as [O'|]; [|discriminate]. injection EO as <-.
    repeat split; discriminate. }
  assert (Hbs : exists k t, Build (map xbox objs) = Some k /\ built (map xbox objs) k t) by (apply build_spec; [discriminate|discriminate|exact Hok]).
  destruct Hbs as (k' & t & E' & B).
  rewrite E in E'. injection E' as <-.
  destruct B as (Rp & I1 & D & N & ND & _ & _ & Os & G & Sp & Hh & W).
  set (stack := SE None n0 (vadd (rpos (xray r)) (smulv (Max n0 n0) (rdir (xray r)))) 0 ::
                SE None ninf (vadd (rpos (xray r)) (vmuls (rdir (xray r)) ninf)) 0 :: repeat (SE None n0 vzero 0) 98).
  assert (Hl : (length (nodes_of t ++ pending (T := xr) []) <= length (nodes k))%nat).
  { cbn [pending flat_map]. rewrite app_nil_r. rewrite <- (seq_length (length (nodes k)) 0). apply NoDup_incl_length; [assumption|].
    intros j Hj. apply N in Hj. apply in_seq. lia. }
  assert (Lp : forall fuel, (length (nodes k) <= fuel)%nat -> exists full,
     (forall stop visited, rayLoop fuel (nodes k) (xray r) stop (Some (idx t)) 0 1 stack visited = Done (until stop full visited)) /\
      NoDup (map leaf_of full) /\ forall x, In x full -> isleaf (nodes k) (leaf_of x) /\ In (leaf_of x) (nodes_of t ++ pending (T := xr) [])).
  { intros fuel Hf. apply (ray_loop_spec (nodes k) (buckets k) (xray r) fuel t []); try assumption; try (cbn; lia).
    - eapply chain_end; reflexivity.
    - cbn [pending flat_map]. now rewrite app_nil_r.
    - intros j Hj. cbn [pending flat_map] in Hj. rewrite app_nil_r in Hj. apply N in Hj. lia.
    - lia. }
  destruct (Lp (length (nodes k)) (le_n _)) as (full & Run & _ & _).
  assert (Mono : forall st f c en ex s v x, rayLoop f (nodes k) (xray r) st c en ex s v = Done x -> forall g, (f <= g)%nat -> rayLoop g (nodes k) (xray r) st c en ex s v = Done x).
  { clear. intros st f. induction f as [|f IH]; intros c en ex s v x Ev g Hg.
    - destruct c; [discriminate|]. destruct g; exact Ev.
    - destruct c as [c|]; [|destruct g; exact Ev]. destruct g as [|g]; [lia|]. cbn [rayLoop] in *.
      destruct (rayDescend _ _ _ _ _ _ _) as [[[[lf e'] s']|]|]; try discriminate.
      destruct (nth_error s' en); [|discriminate]. destruct (nth_error s' e'); [|discriminate]. destruct (st _); [exact Ev|]. apply (IH _ _ _ _ _ _ Ev). lia. }
  assert (Root : exists nd, nth_error (nodes k) 1 = Some nd).
  { destruct t; cbn in Rp, I1; subst; eexists; apply Rp. }
  destruct Root as [nd Root].
  (* does the ray meet the root box at all? *)
  destruct (AABB_IntersectLine (rootAABB k) (rpos (xray r)) (rdir (xray r)) (Fin n0) PInf) as [[hit tn] tf] eqn:Hit.
  destruct hit.
  - exists full. split.
    { intros stop fuel Hf. unfold RayQuery. rewrite Hit. cbn [negb]. rewrite Root. fold stack.
      apply (Mono stop (length (nodes k))); [|assumption]. rewrite <- I1 at 1. apply Run. }
    intros o O t0 EO Ht Hin Gp.
    destruct (loop_exact (nodes k) (buckets k) (map xbox objs) r) with (o := o) (O := O) (t0 := t0) (fuel := length (nodes k)) (t := t)
      (ts := @nil (@tr xr * xr * xr)) (entry := 0%nat) (exit := 1%nat) (stack := stack) (en := SE None n0 (vadd (rpos (xray r)) (smulv (Max n0 n0) (rdir (xray r)))) 0)
      (a := X 0) (b := XP) (visited := @nil (nat * xr * xr)) (v := until never full []) as (leaf & a' & b' & Hv & Cov).
    + exact (positions_fin objs k E).
    + intros ax. specialize (Ob ax). intros Z. rewrite Z, Rabs_R0 in Ob. lra.
    + intros n ax s m ax' s' H1 H2. specialize (Z1 n ax s m ax' s' H1 H2). rewrite ray_at_at in Z1. exact Z1.
    + rewrite nth_error_map, EO. reflexivity.
    + intros ax. rewrite <- ray_at_at. now apply in_box_at.
    + intros n ax s H1 H2. rewrite <- ray_at_at in H2. destruct (Gp n ax s H1 H2) as [H|[H H']]; [left; exact H|right]. split; [exact H|].
      intros m ax' s' H3 H4. rewrite <- ray_at_at. now apply (H' m ax' s').
    + repeat split; auto; try (now left); cbn; auto.
    + intros t' [].
    + reflexivity.
    + split; [reflexivity|]. split; [exact I|]. intros ax. unfold Max. cbn [nleb Num_X n0 nlit xleb Rlit].
      destruct (Rleb 0 0); destruct ax as [|[|ax]]; reflexivity.
    + eapply cx_end; [reflexivity|reflexivity|]. split; [reflexivity|]. split; [exact I|]. intros ax. specialize (Ob ax).
      cbn [sp]. unfold coord.
      assert (S : at3 (vadd (rpos (xray r)) (vmuls (rdir (xray r)) ninf)) ax = xadd (X (at3 (rpos r) ax)) (xsgn (at3 (rdir r) ax))) by (destruct ax as [|[|ax]]; reflexivity).
      rewrite S. unfold xsgn. destruct (Rlt_dec 0 (at3 (rdir r) ax)) as [P|P]; [reflexivity|].
      destruct (Rlt_dec (at3 (rdir r) ax) 0) as [P'|P']; [reflexivity|]. exfalso. rewrite Rabs_pos_eq in Ob by lra. lra.
    + reflexivity.
    + left. split; [|split; [exact Ht|exact I]]. apply Os. rewrite map_length. now apply nth_some_lt in EO.
    + apply Run.
    + destruct Cov as ((bk & os & C1 & C2 & C3) & C4 & C5). exists leaf, a', b', os. apply until_never in Hv. destruct Hv as [Hv|[]].
      split; [exact Hv|]. split; [now exists bk|]. auto.
  - exists []. split; [intros stop fuel _; unfold RayQuery; now rewrite Hit|].
    intros o O t0 EO Ht Hin Gp. exfalso.
    assert (Hr : exists b, rootAABB k = xbox b).
    { unfold Build in E. destruct (BucketAABB (map xbox objs) (seq 0 (length (map xbox objs)))) as [A|] eqn:EA; [|discriminate].
      destruct (SplitLeaf _ _ _ _ _ _ _) as [[ns' bs']|]; [|discriminate]. injection E as <-. cbn [rootAABB].
      apply (bucket_fin objs (seq 0 (length (map xbox objs)))); [|exact EA]. destruct objs; [destruct o; discriminate|discriminate]. }
    destruct Hr as [b Hr].
    assert (Wo : within (xbox O) (rootAABB k)) by (apply (W o); rewrite nth_error_map, EO; reflexivity).
    rewrite Hr in Wo, Hit. destruct (root_hit b r t0 Ob Ht) as (tn' & tf' & Hit').
    + intros ax. rewrite <- ray_at_at. pose proof (in_box_at _ _ Hin ax) as Q. destruct (within_at _ _ ax Wo) as [W1 W2].
      cbn [xbox minPoint maxPoint] in W1, W2. rewrite !at3_xv in W1, W2. cbn in W1, W2. apply Rleb_true in W1, W2. lra.
    + rewrite Hit in Hit'. discriminate.
Qed.
Print Assumptions C56_ray_query_complete_partial.

(** The hypotheses are met for trees of any size: boxes with integer corners and the main diagonal as the ray. *)
Definition whole (x : R) : Prop := exists z, x = IZR z.
Definition whole_box (b : aabb R) : Prop := forall ax, whole (at3 (minPoint b) ax) /\ whole (at3 (maxPoint b) ax).
Lemma whole_enclose objs os : Forall whole_box objs -> forall a A, whole_box a -> encloseBucket (map xbox objs) os (xbox a) = Some A ->
  exists A', A = xbox A' /\ whole_box A'.
Proof.
  intros F. induction os as [|o os IH]; cbn [encloseBucket]; intros a A Wa E; [injection E as <-; now exists a|].
  rewrite nth_error_map in E. destruct (nth_error objs o) as [O|] eqn:EO; cbn [option_map] in E; [|discriminate].
  assert (WO : whole_box O) by (apply nth_error_In in EO; exact (proj1 (Forall_forall _ _) F O EO)).
  assert (Mn : forall x y, whole x -> whole y -> exists c, Min (X x) (X y) = X c /\ whole c) by (intros x y; unfold Min; destruct (nleb _ _); eauto).
  assert (Mx : forall x y, whole x -> whole y -> exists c, Max (X x) (X y) = X c /\ whole c) by (intros x y; unfold Max; destruct (nleb _ _); eauto).
  assert (H : exists a', AABB_EncloseMinMax (xbox a) (minPoint (xbox O)) (maxPoint (xbox O)) = xbox a' /\ whole_box a').
  { unfold AABB_EncloseMinMax, xbox, vMin, vMax, xv. cbn [minPoint maxPoint vx vy vz].
    destruct (Wa 0%nat) as [a0 b0], (Wa 1%nat) as [a1 b1], (Wa 2%nat) as [a2 b2], (WO 0%nat) as [c0 d0], (WO 1%nat) as [c1 d1], (WO 2%nat) as [c2 d2].
    cbn [at3] in *.
    destruct (Mn _ _ a0 c0) as (m0 & -> & ?), (Mn _ _ a1 c1) as (m1 & -> & ?), (Mn _ _ a2 c2) as (m2 & -> & ?).
    destruct (Mx _ _ b0 d0) as (n0 & -> & ?), (Mx _ _ b1 d1) as (n1 & -> & ?), (Mx _ _ b2 d2) as (n2 & -> & ?).
    exists (Box (V3 m0 m1 m2) (V3 n0 n1 n2)). split; [reflexivity|]. intros [|[|ax]]; split; assumption. }
  destruct H as (a' & H & W'). rewrite H in E. now apply (IH a').
Qed.
Lemma whole_splits objs k : Forall whole_box objs -> Build (map xbox objs) = Some k -> forall n ax s, splits k n ax s -> exists z, s = IZR z / 2.
Proof.
  intros F E n ax s (c & Ec).
  assert (H : exists z, X s = X (IZR z / 2)).
  { refine (build_positions (map xbox objs) (fun x => exists z, x = X (IZR z / 2)) _ k E n ax (X s) c Ec).
    intros os A N EA ax'. destruct os as [|o os]; [congruence|]. unfold BucketAABB in EA. cbn [encloseBucket] in EA.
    rewrite nth_error_map in EA. destruct (nth_error objs o) as [O|] eqn:EO; cbn [option_map] in EA; [|discriminate].
    change (AABB_EncloseMinMax AABB_NegativeInfinity (minPoint (xbox O)) (maxPoint (xbox O))) with (xbox O) in EA.
    assert (WO : whole_box O) by (apply nth_error_In in EO; exact (proj1 (Forall_forall _ _) F O EO)).
    destruct (whole_enclose objs os F O A WO EA) as (A' & -> & WA). destruct (WA ax') as [[z1 H1] [z2 H2]]. exists (z1 + z2)%Z.
    transitivity (X ((at3 (minPoint A') ax' + at3 (maxPoint A') ax') * Rlit 1 2)).
    - destruct ax' as [|[|ax']]; reflexivity.
    - rewrite H1, H2, plus_IZR. f_equal. unfold Rlit. cbn. field. }
  destruct H as [z H]. injection H as ->. now exists z.
Qed.
Definition diagonal : ray R := Ry (V3 0 0 0) (V3 1 1 1).
Definition cubes (n : nat) : list (aabb R) := map (fun i => Box (V3 (INR i) (INR i) (INR i)) (V3 (INR i + 1) (INR i + 1) (INR i + 1))) (seq 0 n).
Example C56_complete_witness n o : (o < n)%nat -> exists k O, Build (map xbox (cubes n)) = Some k /\ oblique diagonal /\ clear_of_Z1 k diagonal /\
  nth_error (cubes n) o = Some O /\ in_box O (ray_at diagonal (INR o + 1/3)) /\ general_position k diagonal O (INR o + 1/3).
Proof.
  intros Ho.
  assert (F : Forall whole_box (cubes n)).
  { apply Forall_forall. intros b Hb. apply in_map_iff in Hb. destruct Hb as (i & <- & _).
    assert (whole (INR i)) by (exists (Z.of_nat i); apply INR_IZR_INZ).
    assert (whole (INR i + 1)) by (exists (Z.of_nat i + 1)%Z; now rewrite plus_IZR, INR_IZR_INZ).
    intros [|[|ax]]; split; assumption. }
  assert (Hbs : exists k t, Build (map xbox (cubes n)) = Some k /\ built (map xbox (cubes n)) k t).
  { apply build_spec; [discriminate|discriminate|]. intros i O EO. rewrite nth_error_map in EO. destruct (nth_error (cubes n) i) as [O'|]; [|discriminate].
    injection EO as <-. repeat split; discriminate. }
  destruct Hbs as (k & _ & E & _). exists k. eexists. split; [exact E|].
  assert (At : forall t ax, at3 (ray_at diagonal t) ax = t) by (intros t ax; rewrite ray_at_at; destruct ax as [|[|ax]]; cbn; ring).
  assert (Cr : forall ax s, crosses diagonal ax s = s) by (intros ax s; unfold crosses; destruct ax as [|[|ax]]; cbn; field).
  split. { intros [|[|ax]]; cbn; rewrite Rabs_R1; lra. }
  split. { intros m ax s m' ax' s' H1 H2. rewrite At, Cr. destruct (whole_splits _ _ F E _ _ _ H1) as [z ->], (whole_splits _ _ F E _ _ _ H2) as [z' ->].
    intros [L1 L2]. assert (Lt : (z < z')%Z) by (apply lt_IZR; lra). assert (Le : (z + 1 <= z')%Z) by lia. apply IZR_le in Le. rewrite plus_IZR in Le. lra. }
  split. { unfold cubes. rewrite nth_error_map. rewrite (nth_error_nth' _ 0%nat) by now rewrite seq_length. rewrite seq_nth by assumption. reflexivity. }
  split. { cbn [Nat.add]. split; [|split]; cbn; lra. }
  intros m ax s H1. rewrite At. intros H2. exfalso. destruct (whole_splits _ _ F E _ _ _ H1) as [z ->]. rewrite INR_IZR_INZ in H2.
  assert (H3 : IZR (6 * Z.of_nat o + 2) = IZR (3 * z)) by (rewrite plus_IZR, !mult_IZR; lra). apply eq_IZR in H3. lia.
Qed.
