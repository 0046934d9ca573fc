(** Properties C53-C56: the kd-tree.

    All statements are about binary32 coordinates; the objects' boxes are arbitrary except that no coordinate is NaN
    (infinite, inverted, degenerate and coinciding boxes are included). *)
From Coq Require Import ZArith Bool List Lia.
From Coq Require Import Floats.SpecFloat.
From Flocq Require Import Core.Core IEEE754.BinarySingleNaN.
From Verif Require Import Num F32 F32Laws ScalarModel Vec3Model GeoTypes AabbModel AabbSpec AabbProofs KdTreeModel KdTreeSpec KdTreeProofs KdRayProofs.
Import ListNotations.
Ltac Zify.zify_post_hook ::= idtac.
Local Open Scope nat_scope.

Definition no_nan (objs : list (aabb f32)) : Prop := Forall okb objs.
Lemma build_tree objs : no_nan objs -> exists k t, Build objs = Some k /\ built objs k t.
Proof.
  intros H. apply build_spec; [reflexivity|reflexivity|]. intros o O E. apply (proj1 (Forall_forall _ _) H). now apply nth_error_In in E.
Qed.
Lemma build_is objs k : no_nan objs -> Build objs = Some k -> exists t, built objs k t.
Proof. intros H E. destruct (build_tree objs H) as (k' & t & E' & B). rewrite E in E'. injection E' as <-. now exists t. Qed.

(** ** C53 *)
(** Build succeeds: no access outside the node, bucket and temporary arrays, on any input. *)
Theorem C53_build_never_out_of_bounds objs : no_nan objs -> exists k, Build objs = Some k.
Proof. intros H. destruct (build_tree objs H) as (k & t & E & _). now exists k. Qed.
Print Assumptions C53_build_never_out_of_bounds.

Theorem C53_every_object_in_a_leaf objs k : no_nan objs -> Build objs = Some k ->
  forall o, o < length objs -> exists j os, reach (nodes k) 1 j /\ leaf_objects k j os /\ In o os.
Proof.
  intros H E o Ho. destruct (build_is objs k H E) as (t & Rp & I1 & _ & _ & _ & _ & _ & Os & _).
  apply Os in Ho. destruct (leaf_of_obj _ _ t o Rp Ho) as (j & b & os & Hr & E1 & E2 & I). exists j, os. rewrite I1 in Hr.
  repeat split; auto. now exists b.
Qed.
Print Assumptions C53_every_object_in_a_leaf.

Theorem C53_leaves_hold_only_objects objs k : no_nan objs -> Build objs = Some k ->
  forall j, reach (nodes k) 1 j -> is_leaf k j ->
  exists os, leaf_objects k j os /\ NoDup os /\ forall o, In o os -> o < length objs.
Proof.
  intros H E j Hr [b Lf]. destruct (build_is objs k H E) as (t & Rp & I1 & _ & _ & _ & _ & _ & Os & G & _).
  rewrite <- I1 in Hr. apply (reach_in _ _ t Rp) in Hr. destruct (leaf_in_tree _ _ t _ Rp G j Hr b Lf) as (os & E2 & ND & S & _).
  exists os. repeat split; auto; [now exists b|]. intros o Ho. now apply Os, S.
Qed.
Print Assumptions C53_leaves_hold_only_objects.

(** No two leaves share a bucket, and no leaf uses the null bucket 0. *)
Theorem C53_leaves_own_their_bucket objs k : no_nan objs -> Build objs = Some k ->
  forall j j' b, 1 <= j -> 1 <= j' -> nth_error (nodes k) j = Some (NLeaf b) -> nth_error (nodes k) j' = Some (NLeaf b) -> j = j' /\ b <> 0.
Proof.
  intros H E j j' b H1 H2 E1 E2. destruct (build_is objs k H E) as (t & Rp & I1 & _ & N & _ & Bk & NDB & _ & G & _).
  pose proof (nth_some_lt _ _ _ E1). pose proof (nth_some_lt _ _ _ E2).
  assert (Ij : In j (nodes_of t)) by (apply N; lia). assert (Ij' : In j' (nodes_of t)) by (apply N; lia).
  split; [now apply (bucket_unique _ _ t Rp NDB j j' b)|].
  destruct (leaf_in_tree _ _ t _ Rp G j Ij b E1) as (_ & _ & _ & _ & I). apply Bk in I. lia.
Qed.
Print Assumptions C53_leaves_own_their_bucket.

(** ** C54 *)
(** The callback is invoked exactly on the leaves whose path overlaps the query, once each, in an order that does not depend on
    the callback, until it asks to stop.  In particular the query terminates and never accesses memory out of bounds. *)
Theorem C54_query_visits objs k q : no_nan objs -> Build objs = Some k -> AABB_Intersects q (rootAABB k) = true ->
  exists full, NoDup full /\ (forall j, In j full <-> is_leaf k j /\ overlaps (nodes k) q 1 j) /\
    forall stop fuel, length (nodes k) <= fuel -> AABBQuery fuel k q stop = Done (until stop full []).
Proof.
  intros H E Hi. destruct (build_is objs k H E) as (t & Rp & I1 & _ & N & ND & _ & _ & _ & G & _ & Hh & _).
  assert (Nn : ninn t <= length (nodes k)).
  { apply Nat.le_trans with (1 := ninn_nodes t). rewrite <- (seq_length (length (nodes k)) 0). apply NoDup_incl_length; [assumption|].
    intros j Hj. apply N in Hj. apply in_seq. lia. }
  unfold AABBQuery. rewrite Hi. cbn [negb]. destruct t as [i b os|i ax pos l r].
  - cbn [idx] in I1. subst i. pose proof Rp as [E1 _]. exists [1]. split; [repeat constructor; intros []|]. split.
    + intros j. pose proof (seen_leaf (nodes k) (buckets k) q 1 b os j Rp) as Sl. cbn [In].
      unfold seen in Sl. cbn [idx] in Sl. unfold is_leaf. change (isleaf (nodes k) j) with (exists b, nth_error (nodes k) j = Some (NLeaf b)) in Sl.
      rewrite Sl. intuition.
    + intros stop fuel _. rewrite E1. cbn [until]. now destruct (stop [1]).
  - cbn [idx] in I1. subst i. pose proof Rp as (E1 & _).
    destruct (loop_spec (nodes k) (buckets k) q (length (nodes k)) [TN 1 ax pos l r]) as (full & NDf & Inf & Run).
    + intros t' [<-|[]]. cbn. auto.
    + cbn [fits length]. split; [lia|exact I].
    + cbn [flat_map]. rewrite app_nil_r. assumption.
    + cbn [map list_sum fold_right]. lia.
    + exists full. split; [assumption|]. split.
      * intros j. rewrite Inf. split; [intros (t' & [<-|[]] & Sn); exact Sn|intros Sn; exists (TN 1 ax pos l r); split; [now left|exact Sn]].
      * intros stop fuel Hfu. rewrite E1.
        destruct (loop_spec (nodes k) (buckets k) q fuel [TN 1 ax pos l r]) as (full' & _ & _ & Run').
        { intros t' [<-|[]]. cbn. auto. } { cbn [fits length]. split; [lia|exact I]. }
        { cbn [flat_map]. rewrite app_nil_r. assumption. } { cbn [map list_sum fold_right]. lia. }
        (* more fuel does not change the result *)
        assert (Mono : forall st f s v x, aabbLoop f (nodes k) q st s v = Done x -> forall g, f <= g -> aabbLoop g (nodes k) q st s v = Done x).
        { clear. intros st f. induction f as [|f IH]; intros s v x Ev g Hg.
          - destruct s; [destruct g; exact Ev|discriminate].
          - destruct s as [|c s]; [destruct g; exact Ev|]. destruct g as [|g]; [lia|]. cbn [aabbLoop] in *.
            destruct (nth_error (nodes k) c) as [[|ax' p' c']|]; try discriminate.
            match type of Ev with context [match ?L with Some _ => _ | None => Fault end] => destruct L as [[[s1 v1] [|]]|] end; try discriminate; [exact Ev|].
            destruct (nleb p' (at3 (maxPoint q) ax')); [|apply (IH _ _ _ Ev); lia].
            destruct (nth_error (nodes k) (S c')) as [[|]|]; try discriminate.
            + destruct (st (S c' :: v1)); [exact Ev|]. apply (IH _ _ _ Ev). lia.
            + destruct (length s1 <? aabbStackSize); [|discriminate]. apply (IH _ _ _ Ev). lia. }
        change ([1] : list nat) with (map (@idx f32) [TN 1 ax pos l r]). apply (Mono stop (length (nodes k))); [apply Run|assumption].
Qed.
Print Assumptions C54_query_visits.

(** Nothing is visited when the query misses the root box. *)
Theorem C54_query_outside_root k q (stop : list nat -> bool) fuel : AABB_Intersects q (rootAABB k) = false -> AABBQuery (T := f32) fuel k q stop = Done [].
Proof. intros E. unfold AABBQuery. now rewrite E. Qed.
Print Assumptions C54_query_outside_root.

Definition proper (q : aabb f32) : Prop := nonempty q.
Lemma proper_at q ax : proper q -> nleb (at3 (minPoint q) ax) (at3 (maxPoint q) ax) = true.
Proof. intros (?&?&?). destruct ax as [|[|ax]]; assumption. Qed.

Lemma complete_in_tree objs ns bs t q o O : no_nan objs -> rep ns bs t -> sep objs t -> proper q -> nth_error objs o = Some O -> AABB_Intersects q O = true ->
  In o (objs_of t) -> exists j b os, overlaps ns q (idx t) j /\ nth_error ns j = Some (NLeaf b) /\ nth_error bs b = Some (Some os) /\ In o os.
Proof.
  intros Hn Rp Sp Hq EO Hi. pose proof (proj1 (intersects_at q O) Hi) as Hat.
  induction t as [i b os|i ax pos l IHl r IHr]; cbn [rep objs_of sep idx] in *; intros I.
  - exists i, b, os. repeat split; try tauto. constructor.
  - destruct Rp as (E1 & E2 & Rl & Rr). destruct Sp as (Hax & Op & S1 & S2 & Sl & Sr). specialize (IHl Rl Sl). specialize (IHr Rr Sr).
    assert (GoL : nleb (at3 (minPoint q) ax) pos = true -> In o (objs_of l) ->
      exists j b os, overlaps ns q i j /\ nth_error ns j = Some (NLeaf b) /\ nth_error bs b = Some (Some os) /\ In o os).
    { intros C Il. destruct (IHl Il) as (j & b & os & Ov & X). exists j, b, os. split; [eapply ov_left; eassumption|exact X]. }
    assert (GoR : nleb pos (at3 (maxPoint q) ax) = true -> In o (objs_of r) ->
      exists j b os, overlaps ns q i j /\ nth_error ns j = Some (NLeaf b) /\ nth_error bs b = Some (Some os) /\ In o os).
    { intros C Ir. destruct (IHr Ir) as (j & b & os & Ov & X). exists j, b, os. split; [eapply ov_right; [eassumption..|]; now rewrite <- E2|exact X]. }
    apply in_app_iff in I. destruct (Hat ax) as [H1 H2].
    destruct (in_dec Nat.eq_dec o (objs_of l)) as [Il|Nl], (in_dec Nat.eq_dec o (objs_of r)) as [Ir|Nr]; try tauto.
    + destruct (leb_ok _ _ (proper_at q ax Hq)) as [Oq _].
      destruct (leb_total (at3 (minPoint q) ax) pos Oq Op) as [L|L]; [now apply GoL|]. apply GoR; [|assumption].
      exact (leb_trans _ _ _ L (proper_at q ax Hq)).
    + apply GoL; [|assumption]. apply leb_trans with (2 := S1 o O EO Il Nr). now apply ltb_true_leb.
    + apply GoR; [|assumption]. apply leb_trans with (1 := S2 o O EO Ir Nl). now apply ltb_true_leb.
Qed.

Lemma intersects_within q O A : AABB_Intersects q O = true -> within O A -> AABB_Intersects q A = true.
Proof.
  intros Hi W. apply intersects_at. intros ax. destruct (proj1 (intersects_at q O) Hi ax) as [H1 H2].
  destruct (within_at O A ax W) as [W1 W2]. split; [eapply ltb_leb_trans|eapply leb_ltb_trans]; eassumption.
Qed.

(** Completeness: every object whose box intersects the query box (in the sense of AABB::Intersects) is in a visited leaf. *)
Theorem C54_query_complete objs k q : no_nan objs -> Build objs = Some k -> proper q ->
  forall o O, nth_error objs o = Some O -> AABB_Intersects q O = true ->
  forall fuel, length (nodes k) <= fuel ->
  exists visited, AABBQuery fuel k q (fun _ => false) = Done visited /\ exists j os, In j visited /\ leaf_objects k j os /\ In o os.
Proof.
  intros H E Hq o O EO Hi fuel Hf. destruct (build_is objs k H E) as (t & Rp & I1 & _ & _ & _ & _ & _ & Os & _ & Sp & _ & W).
  destruct (C54_query_visits objs k q H E (intersects_within q O _ Hi (W o O EO))) as (full & ND & Inf & Run).
  exists (until (fun _ => false) full []). split; [now apply Run|].
  destruct (complete_in_tree objs (nodes k) (buckets k) t q o O H Rp Sp Hq EO Hi) as (j & b & os & Ov & E1 & E2 & I).
  { apply Os. now apply nth_some_lt in EO. }
  rewrite I1 in Ov. exists j, os. split; [|split; [now exists b|assumption]].
  assert (U : forall l d, In j l \/ In j d -> In j (until (fun _ => false) l d)).
  { clear. induction l as [|x l IH]; cbn; intros d [I|I]; auto; try tauto. { apply IH. cbn. destruct I; auto. } { apply IH. cbn. auto. } }
  apply U. left. apply Inf. split; [now exists b|assumption].
Qed.
Print Assumptions C54_query_complete.

(** ** C55 *)
Theorem C55_height objs k : no_nan objs -> Build objs = Some k -> exists h, TreeHeight k = Some h /\ 1 <= h <= 30.
Proof.
  intros H E. destruct (build_is objs k H E) as (t & Rp & I1 & _ & N & ND & _ & _ & _ & _ & _ & Hh & _).
  exists (height t). split; [|pose proof (height_pos t); lia]. unfold TreeHeight. rewrite <- I1. eapply tree_height; [eassumption|].
  apply Nat.le_trans with (1 := height_nodes t). rewrite <- (seq_length (length (nodes k)) 0). apply NoDup_incl_length; [assumption|].
  intros j Hj. apply N in Hj. apply in_seq. lia.
Qed.
Print Assumptions C55_height.

Lemma depth_height ns bs (t : @tr f32) : rep ns bs t -> idx t = 1 -> forall j n, depth ns j n ->
  exists t', rep ns bs t' /\ idx t' = j /\ n + height t' <= S (height t) /\ (forall x, In x (nodes_of t') -> In x (nodes_of t)).
Proof.
  intros Rp I1 j n. induction 1 as [|i ax p c n D IH E|i ax p c n D IH E].
  - exists t. repeat split; auto; lia.
  - destruct IH as (t' & R' & I' & L & S). destruct t' as [i' b os|i' ax' p' l r].
    + cbn in R', I'. subst i'. destruct R' as [R' _]. congruence.
    + cbn in R', I'. subst i'. destruct R' as (R' & E2 & Rl & Rr). rewrite E in R'. injection R' as ? ? ?; subst.
      exists l. cbn [height] in L. repeat split; auto; [lia|]. intros x Hx. apply S. cbn. rewrite in_app_iff. auto.
  - destruct IH as (t' & R' & I' & L & S). destruct t' as [i' b os|i' ax' p' l r].
    + cbn in R', I'. subst i'. destruct R' as [R' _]. congruence.
    + cbn in R', I'. subst i'. destruct R' as (R' & E2 & Rl & Rr). rewrite E in R'. injection R' as ? ? ?; subst.
      exists r. cbn [height] in L. repeat split; auto; [lia|]. intros x Hx. apply S. cbn. rewrite in_app_iff. auto.
Qed.
(** No path from the root is longer than maxTreeDepth nodes; the nodes are exactly the ones reachable from the root. *)
Theorem C55_depth objs k : no_nan objs -> Build objs = Some k -> forall j n, depth (nodes k) j n -> n <= 30.
Proof.
  intros H E j n D. destruct (build_is objs k H E) as (t & Rp & I1 & _ & _ & _ & _ & _ & _ & _ & _ & Hh & _).
  destruct (depth_height _ _ t Rp I1 j n D) as (t' & _ & _ & L & _). pose proof (height_pos t'). lia.
Qed.
Print Assumptions C55_depth.
Theorem C55_nodes_reachable objs k : no_nan objs -> Build objs = Some k ->
  nth_error (nodes k) 0 = Some (NLeaf 0) /\ forall j, reach (nodes k) 1 j <-> 1 <= j < length (nodes k).
Proof.
  intros H E. destruct (build_is objs k H E) as (t & Rp & I1 & D & N & _). split; [exact D|]. intros j. rewrite <- N, <- I1.
  apply (reach_in _ _ t Rp).
Qed.
Print Assumptions C55_nodes_reachable.

Theorem C55_counts objs k : no_nan objs -> Build objs = Some k ->
  NumNodes k = (Z.of_nat (NumLeaves k) + Z.of_nat (NumInnerNodes k))%Z /\ NumLeaves k = S (NumInnerNodes k).
Proof.
  intros H E. destruct (build_is objs k H E) as (t & Rp & I1 & D & N & _).
  unfold NumNodes, NumLeaves, NumInnerNodes. destruct (nodes k) as [|x ns] eqn:En; [discriminate|]. cbn in D. injection D as ->.
  cbn [tl length]. pose proof (count_partition ns) as P. unfold nleaf, ninner in P. split; [lia|].
  unfold Build in E. destruct (BucketAABB _ _); [|discriminate].
  destruct (SplitLeaf _ _ _ _ _ _ _) as [[ns' bs']|] eqn:Sp; [|discriminate]. injection E as <-. cbn [nodes] in En. subst ns'.
  apply split_counts in Sp. unfold nleaf, ninner in Sp. cbn [filter isLeaf negb length] in Sp. lia.
Qed.
Print Assumptions C55_counts.

Lemma nodes_pow (t : @tr f32) : (Z.of_nat (length (nodes_of t)) < 2 ^ Z.of_nat (height t))%Z.
Proof.
  induction t as [|i ax p l IHl r IHr]; [reflexivity|]. cbn [nodes_of height length]. rewrite app_length.
  rewrite !Nat2Z.inj_succ, Z.pow_succ_r by lia.
  assert (M : forall a b, a <= b -> (2 ^ Z.of_nat a <= 2 ^ Z.of_nat b)%Z) by (intros; apply Z.pow_le_mono_r; lia).
  pose proof (M (height l) (Nat.max (height l) (height r)) ltac:(lia)).
  pose proof (M (height r) (Nat.max (height l) (height r)) ltac:(lia)). lia.
Qed.
(** The child index always fits the 30-bit field of KdTreeNode (KDTree.h:44). *)
Theorem C55_childIndex_fits objs k : no_nan objs -> Build objs = Some k ->
  forall j ax p c, 1 <= j -> nth_error (nodes k) j = Some (NInner ax p c) -> ax <= 2 /\ S c < length (nodes k) /\ (Z.of_nat (S c) < 2 ^ 30)%Z.
Proof.
  intros H E j ax p c Hj Ej. destruct (build_is objs k H E) as (t & Rp & I1 & D & N & ND & _ & _ & _ & _ & Sp & Hh & _).
  assert (Lt : (Z.of_nat (length (nodes k)) <= 2 ^ 30)%Z).
  { pose proof (nodes_pow t) as P. assert (Z.of_nat (length (nodes_of t)) < 2 ^ 30)%Z.
    { apply Z.lt_le_trans with (1 := P). apply Z.pow_le_mono_r; lia. }
    assert (length (nodes k) = S (length (nodes_of t))); [|lia].
    assert (L1 : length (nodes_of t) <= length (seq 1 (length (nodes k) - 1))).
    { apply NoDup_incl_length; [assumption|]. intros x Hx. apply N in Hx. apply in_seq. lia. }
    assert (L2 : length (seq 1 (length (nodes k) - 1)) <= length (nodes_of t)).
    { apply NoDup_incl_length; [apply seq_NoDup|]. intros x Hx. apply N. apply in_seq in Hx. lia. }
    rewrite seq_length in L1, L2. pose proof (nth_some_lt _ _ _ D). lia. }
  assert (Q : forall t', rep (nodes k) (buckets k) t' -> sep objs t' -> In j (nodes_of t') -> ax <= 2 /\ In c (nodes_of t') /\ In (S c) (nodes_of t')).
  { clear -Ej. induction t' as [i b os|i ax' p' l IHl r IHr]; cbn [rep sep nodes_of]; intros Rp Sp I.
    - destruct I as [<-|[]]. destruct Rp as [Rp _]. congruence.
    - destruct Rp as (E1 & E2 & Rl & Rr). destruct Sp as (Hax & _ & _ & _ & Sl & Sr).
      destruct I as [<-|I].
      + rewrite Ej in E1. injection E1 as ? ? ?; subst. split; [assumption|]. rewrite <- E2. split; right; apply in_app_iff; [left|right]; apply idx_in.
      + apply in_app_iff in I. destruct I as [I|I]; [destruct (IHl Rl Sl I) as (? & ? & ?)|destruct (IHr Rr Sr I) as (? & ? & ?)];
          (split; [assumption|]); split; right; apply in_app_iff; auto. }
  destruct (Q t Rp Sp) as (Q1 & Q2 & Q3); [apply N; split; [assumption|]; now apply nth_some_lt in Ej|].
  apply N in Q2, Q3. split; [assumption|]. split; [lia|]. pose proof (proj2 Q3). lia.
Qed.
Print Assumptions C55_childIndex_fits.

(** The box query's stack of 60 pointers never overflows, and no query reads outside the node array, whatever the callback answers. *)
Theorem C55_query_stack_safe objs k q stop fuel : no_nan objs -> Build objs = Some k -> length (nodes k) <= fuel ->
  exists visited, AABBQuery fuel k q stop = Done visited.
Proof.
  intros H E Hf. destruct (AABB_Intersects q (rootAABB k)) eqn:Hi; [|exists []; now apply C54_query_outside_root].
  destruct (C54_query_visits objs k q H E Hi) as (full & _ & _ & Run). eexists. now apply Run.
Qed.
Print Assumptions C55_query_stack_safe.

(** Finding: Clear() leaves the bounding box behind, so a box query on the cleared tree dereferences the null Root(). *)
Definition fz (z : Z) : f32 := f32_ofZ z.
Definition zbox (a b c d e f : Z) : aabb f32 := Box (V3 (fz a) (fz b) (fz c)) (V3 (fz d) (fz e) (fz f)).
Theorem C55_query_after_clear_refuted : exists objs k q, no_nan objs /\ proper q /\ Build objs = Some k /\
  forall fuel stop, AABBQuery fuel (Clear k) q stop = Fault.
Proof.
  destruct (build_tree [zbox 0 0 0 1 1 1]) as (k & t & E & _); [repeat constructor|].
  exists [zbox 0 0 0 1 1 1], k, (zbox 0 0 0 1 1 1). split; [repeat constructor|]. split; [repeat split; vm_compute; reflexivity|].
  split; [exact E|]. intros fuel stop. unfold AABBQuery, Clear. cbn [rootAABB nodes].
  assert (Q : option_map (fun k => AABB_Intersects (zbox 0 0 0 1 1 1) (rootAABB k)) (Build [zbox 0 0 0 1 1 1]) = Some true) by (vm_compute; reflexivity).
  rewrite E in Q. cbn [option_map] in Q. injection Q as ->. reflexivity.
Qed.
Print Assumptions C55_query_after_clear_refuted.

(** A tree with splits at two levels: 18 boxes in a row at the bottom, one far above. *)
Definition row (y : Z) : list (aabb f32) := map (fun i => zbox (4 * Z.of_nat i) y 0 (4 * Z.of_nat i + 1) (y + 1) 1) (seq 0 18).
Definition rowTree : list (aabb f32) := row 0 ++ [zbox 0 1000 0 1 1001 1].
Definition shape (k : kd f32) := (map (fun n : node f32 => match n with NLeaf b => inl b | NInner ax p c => inr (ax, B2SF p, c) end) (nodes k), buckets k).
Lemma shape_leaf k j b os : nth_error (fst (shape k)) j = Some (inl b) -> nth_error (snd (shape k)) b = Some (Some os) -> leaf_objects k j os.
Proof.
  unfold shape. cbn [fst snd]. rewrite nth_error_map. intros E1 E2. exists b. split; [|assumption].
  destruct (nth_error (nodes k) j) as [[b'|]|]; cbn in E1; congruence.
Qed.
Lemma rowTree_shape : exists k, Build rowTree = Some k /\ shape k = (
     [inl 0; inr (1, B2SF (fz 1001 / fz 2)%num, 2); inr (0, B2SF (fz 69 / fz 2)%num, 4); inl 2; inl 1; inl 3],
     [None; Some (seq 0 9); Some [18]; Some (seq 9 9)]).
Proof.
  match goal with |- exists k, _ /\ _ = ?s => assert (X : option_map shape (Build rowTree) = Some s) by (vm_compute; reflexivity); revert X; generalize s end.
  intros s. destruct (Build rowTree) as [k|]; [|discriminate]. intros X. exists k. split; [reflexivity|]. now injection X.
Qed.
Example C53_witness : no_nan rowTree /\ exists k, Build rowTree = Some k /\ leaf_objects k 4 (seq 0 9) /\ leaf_objects k 5 (seq 9 9) /\ leaf_objects k 3 [18].
Proof.
  split; [repeat constructor|]. destruct rowTree_shape as (k & E & Sh). exists k. split; [exact E|].
  split; [|split]; eapply shape_leaf; rewrite Sh; reflexivity.
Qed.
Example C54_witness : let q := zbox 20 0 0 23 2 1 in proper q /\ AABB_Intersects q (zbox 20 0 0 21 1 1) = true /\
  nth_error rowTree 5 = Some (zbox 20 0 0 21 1 1).
Proof. cbn zeta. split; [repeat split; vm_compute; reflexivity|]. split; [vm_compute; reflexivity|reflexivity]. Qed.

(** ** C56 *)
(** On every tree, for every ray (any directions, even NaN), and whatever the callback answers: the traversal stack of 100
    elements never overflows, nothing is read out of bounds, the loop ends, and each leaf is reported at most once. *)
Theorem C56_ray_query_safe objs k r : no_nan objs -> Build objs = Some k ->
  exists full, (forall stop fuel, length (nodes k) <= fuel -> RayQuery fuel k r stop = Done (until stop full [])) /\
    NoDup (map leaf_of full) /\ forall x, In x full -> is_leaf k (leaf_of x) /\ reach (nodes k) 1 (leaf_of x).
Proof.
  intros H E. destruct (build_is objs k H E) as (t & Rp & I1 & D & N & ND & _ & _ & _ & G & _ & Hh & _).
  unfold RayQuery. destruct (AABB_IntersectLine _ _ _ _ _) as [[[|] tn] tf]; cbn [negb].
  2: { exists []. split; [reflexivity|]. split; [constructor|]. intros x []. }
  destruct (nth_error (nodes k) 1) as [nd|] eqn:E1.
  2: { exists []. split; [reflexivity|]. split; [constructor|]. intros x []. }
  match goal with |- context [rayLoop _ _ _ _ _ _ _ ?s _] => set (stack := s) end.
  assert (Hl : length (nodes_of t ++ pending (T := f32) []) <= length (nodes k)).
  { cbn [pending flat_map]. rewrite app_nil_r. rewrite <- (seq_length (length (nodes k)) 0). apply NoDup_incl_length; [assumption|].
    intros j Hj. apply N in Hj. apply in_seq. lia. }
  assert (X : forall fuel, length (nodes k) <= fuel -> exists full, (forall stop visited, rayLoop fuel (nodes k) r stop (Some (idx t)) 0 1 stack visited = Done (until stop full visited)) /\
      NoDup (map leaf_of full) /\ forall x, In x full -> isleaf (nodes k) (leaf_of x) /\ In (leaf_of x) (nodes_of t ++ pending (T := f32) [])).
  { intros fuel Hf. apply (ray_loop_spec (nodes k) (buckets k) r fuel t []); try assumption; try (cbn; lia).
    - eapply chain_end; reflexivity.
    - cbn [pending flat_map]. now rewrite app_nil_r.
    - intros j Hj. cbn [pending flat_map] in Hj. rewrite app_nil_r in Hj. apply N in Hj. lia.
    - lia. }
  destruct (X (length (nodes k)) (le_n _)) as (full & Run & NDf & Inf). exists full. split; [|split; [assumption|]].
  - intros stop fuel Hf. rewrite I1 in Run.
    assert (Mono : forall st f c en ex s v x, rayLoop f (nodes k) r st c en ex s v = Done x -> forall g, f <= g -> rayLoop g (nodes k) r st c en ex s v = Done x).
    { clear. intros st f. induction f as [|f IH]; intros c en ex s v x Ev g Hg.
      - destruct c; [discriminate|]. destruct g; exact Ev.
      - destruct c as [c|]; [|destruct g; exact Ev]. destruct g as [|g]; [lia|]. cbn [rayLoop] in *.
        destruct (rayDescend _ _ _ _ _ _ _) as [[[[lf e'] s']|]|]; try discriminate.
        destruct (nth_error s' en); [|discriminate]. destruct (nth_error s' e'); [|discriminate]. destruct (st _); [exact Ev|]. apply (IH _ _ _ _ _ _ Ev). lia. }
    apply (Mono stop (length (nodes k))); [apply Run|assumption].
  - intros x Hx. destruct (Inf x Hx) as [L1 L2]. split; [exact L1|]. rewrite <- I1. apply (reach_in _ _ t Rp).
    cbn [pending flat_map] in L2. now rewrite app_nil_r in L2.
Qed.
Print Assumptions C56_ray_query_safe.

(** The leaves a full ray query reports, and whether an object is in one of them. *)
Definition reported (objs : list (aabb f32)) (r : ray f32) : option (list nat) :=
  match Build objs with
  | Some k => match RayQuery (length (nodes k)) k r (fun _ => false) with
              | Done v => Some (flat_map (fun x => match nth_error (nodes k) (leaf_of x) with
                                                   | Some (NLeaf b) => match nth_error (buckets k) b with Some (Some os) => os | _ => [] end
                                                   | _ => [] end) v)
              | _ => None
              end
  | None => None
  end.
Lemma reported_in objs r os : reported objs r = Some os -> exists k v, Build objs = Some k /\
  RayQuery (length (nodes k)) k r (fun _ => false) = Done v /\ forall x os', In x v -> leaf_objects k (leaf_of x) os' -> incl os' os.
Proof.
  unfold reported. destruct (Build objs) as [k|]; [|discriminate]. destruct (RayQuery _ _ _ _) as [| |v] eqn:E; try discriminate.
  intros X. injection X as <-. exists k, v. split; [reflexivity|]. split; [exact E|]. intros x os' Hx (b & E1 & E2) o Ho.
  apply in_flat_map. exists x. split; [assumption|]. rewrite E1, E2. exact Ho.
Qed.

(** Finding: a ray parallel to a coordinate axis misses leaves.  The ray runs along +x at y = 1000.5, through all 18 boxes of the
    upper row; only the leaf with the left half of them is reported. *)
Definition upperRow : list (aabb f32) := row 1000 ++ [zbox 0 0 0 1 1 1].
Definition parallelRay : ray f32 := Ry (V3 (fz (-1)) (f32_lit 2001 2) (f32_lit 1 2)) (V3 (fz 1) (fz 0) (fz 0)).
Definition bool_interior (b : aabb f32) (p : vec f32) : bool :=
  nltb (vx (minPoint b)) (vx p) && nltb (vx p) (vx (maxPoint b)) && nltb (vy (minPoint b)) (vy p) && nltb (vy p) (vy (maxPoint b)) &&
  nltb (vz (minPoint b)) (vz p) && nltb (vz p) (vz (maxPoint b)).
Lemma bool_interior_spec b p : bool_interior b p = true -> interior b p.
Proof. unfold bool_interior, interior. rewrite !andb_true_iff. tauto. Qed.

Theorem C56_axis_parallel_refuted : exists objs k r o O t v, no_nan objs /\ Build objs = Some k /\ nth_error objs o = Some O /\
  nleb (fz 0) t = true /\ interior O (vadd (rpos r) (vmuls (rdir r) t)) /\
  RayQuery (length (nodes k)) k r (fun _ => false) = Done v /\ forall x os, In x v -> leaf_objects k (leaf_of x) os -> ~ In o os.
Proof.
  assert (X : reported upperRow parallelRay = Some (18 :: seq 0 9)) by (vm_compute; reflexivity).
  destruct (reported_in _ _ _ X) as (k & v & E & Q & I).
  exists upperRow, k, parallelRay, 15, (zbox 60 1000 0 61 1001 1), (f32_lit 123 2), v.
  split; [repeat constructor|]. split; [exact E|]. split; [reflexivity|]. split; [vm_compute; reflexivity|].
  split; [apply bool_interior_spec; vm_compute; reflexivity|]. split; [exact Q|].
  intros x os Hx Hl Ho. specialize (I x os Hx Hl 15 Ho). cbn in I. repeat (destruct I as [I|I]; [discriminate|]). destruct I.
Qed.
Print Assumptions C56_axis_parallel_refuted.

(** Finding: when the ray leaves a node less than 1e-4 beyond a split ("case Z1"), the part before the split is skipped.  The ray
    starts inside object 0 and has no zero direction component, yet no reported leaf contains object 0. *)
Definition grazingRay : ray f32 := Ry (V3 (f32_lit 1 2) (f32_lit 1 2) (f32_lit 1 2))
  (V3 (f32_of_bits 0x3d8af170) (f32_of_bits 0x3f7f68f9) (f32_of_bits 0x3a800000)).
Theorem C56_near_split_exit_refuted : exists objs k r o O v, no_nan objs /\ Build objs = Some k /\ nth_error objs o = Some O /\
  interior O (rpos r) /\ nltb (fz 0) (vx (rdir r)) = true /\ nltb (fz 0) (vy (rdir r)) = true /\ nltb (fz 0) (vz (rdir r)) = true /\
  RayQuery (length (nodes k)) k r (fun _ => false) = Done v /\ forall x os, In x v -> leaf_objects k (leaf_of x) os -> ~ In o os.
Proof.
  assert (X : reported rowTree grazingRay = Some (18 :: seq 9 9)) by (vm_compute; reflexivity).
  destruct (reported_in _ _ _ X) as (k & v & E & Q & I).
  exists rowTree, k, grazingRay, 0, (zbox 0 0 0 1 1 1), v.
  split; [repeat constructor|]. split; [exact E|]. split; [reflexivity|]. split; [apply bool_interior_spec; vm_compute; reflexivity|].
  split; [vm_compute; reflexivity|]. split; [vm_compute; reflexivity|]. split; [vm_compute; reflexivity|]. split; [exact Q|].
  intros x os Hx Hl Ho. specialize (I x os Hx Hl 0 Ho). cbn in I. repeat (destruct I as [I|I]; [discriminate|]). destruct I.
Qed.
Print Assumptions C56_near_split_exit_refuted.
