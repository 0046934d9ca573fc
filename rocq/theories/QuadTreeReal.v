(** Lemmas for the quadtree properties, continued: the real-number tree, whose root may grow, and termination of insertion. *)
From Coq Require Import Reals ZArith Bool List Permutation Lia Lra.
From Verif Require Import Num NumR ScalarModel Vec2Model KdTreeModel KdTreeSpec KdTreeProofs QuadTreeModel QuadTreeSpec QuadTreeProofs QuadTreeGrow QuadTreeHist QuadTreeQuery QuadTreeGeo.
Import ListNotations.
Ltac Zify.zify_post_hook ::= idtac.
Local Open Scope nat_scope.

Global Instance SubLaws_R : SubLaws R.
Proof.
  unshelve econstructor; [exact (fun _ => True)|..]; try exact I; try (intros; exact I); intros x y _ _;
    rsimpl; destruct (Rltb_spec 0 (x - y)), (Rltb_spec y x); auto; lra.
Defined.

Section Real.
  Variable rect : nat -> aabb2 R.
  Definition binvR (b : aabb2 R) (c r : v2 R) : Prop :=
    (x2 (min2 b) < x2 (max2 b))%R /\ (y2 (min2 b) < y2 (max2 b))%R /\
    c = muls2 (add2 (min2 b) (max2 b)) nhalf /\ r = sub2 (max2 b) c.
  Definition okboxR (mn mx : v2 R) : Prop := (x2 mn < x2 mx)%R /\ (y2 mn < y2 mx)%R.

  Lemma inv_same (side : nat -> v2 R -> nat -> Prop) (link : nat -> v2 R -> v2 R -> v2 R -> v2 R -> Prop) (t : qtr (T := R)) i c r :
    cen t = c -> rad t = r -> inv side link t -> inv side link (reroot t i c r).
  Proof. intros <- <- V. inversion V; subst; cbn; constructor; assumption. Qed.
  Lemma childc_back (b : aabb2 R) q : q < 4 ->
    let b' := growBound b q in let c' := muls2 (add2 (min2 b') (max2 b')) nhalf in let r' := sub2 (max2 b') c' in
    childc q c' (muls2 r' nhalf) = muls2 (add2 (min2 b) (max2 b)) nhalf /\
    muls2 r' nhalf = sub2 (max2 b) (muls2 (add2 (min2 b) (max2 b)) nhalf).
  Proof.
    intros Lq. destruct b as [[a0 a1] [b0 b1]]. destruct q as [|[|[|[|q]]]]; try lia; cbn; unfold muls2, add2, sub2; cbn; rsimpl; split; f_equal; lra.
  Qed.
  Lemma growR b c r o q : binvR b c r -> growDirection b (rect o) = Some q ->
    let b' := growBound b q in let c' := muls2 (add2 (min2 b') (max2 b')) nhalf in let r' := sub2 (max2 b') c' in
    binvR b' c' r' /\ (forall p, inbOf rect b p -> inbOf rect b' p) /\ (forall p, inbOf rect b p -> sideOf rect q c' p) /\
    (forall t i, cen t = c -> rad t = r -> inv (sideOf rect) linkOf t -> inv (sideOf rect) linkOf (reroot t i (childc q c' (muls2 r' nhalf)) (muls2 r' nhalf))).
  Proof.
    intros (B1 & B2 & -> & ->) Gd. pose proof (grow_lt _ _ _ Gd) as Lq. destruct (childc_back b q Lq) as [E1 E2]. cbn zeta in *. split; [|split; [|split]].
    - clear E1 E2. split; [|split; [|split; reflexivity]]; destruct b as [[a0 a1] [b0 b1]]; destruct q as [|[|[|[|q]]]]; try lia; cbn in *; rsimpl; lra.
    - clear E1 E2. intros p. unfold inbOf, AABB2D_ContainsBox. rsimpl. rewrite !andb_true_iff, !Rleb_true.
      destruct b as [[a0 a1] [b0 b1]]; destruct q as [|[|[|[|q]]]]; try lia; cbn in *; rsimpl; lra.
    - clear E1 E2. intros p. unfold inbOf, AABB2D_ContainsBox, sideOf. rsimpl. rewrite !andb_true_iff, !Rleb_true. intros I0 _ _.
      destruct b as [[a0 a1] [b0 b1]]; destruct q as [|[|[|[|q]]]]; try lia; cbn in *; rsimpl; rewrite !Rleb_true; lra.
    - intros t i Ec Er V. rewrite E1, E2. apply inv_same; auto.
  Qed.
  Lemma clearR mn mx : okboxR mn mx -> let c := muls2 (add2 mn mx) nhalf in binvR (Box2 mn mx) c (sub2 mx c).
  Proof. intros [A B]. repeat split; assumption. Qed.

  Notation opR := (okop (fun _ => True) okboxR).
  Notation stateR := (okstate (sideOf rect) linkOf binvR (inbOf rect)).
  Lemma runR fuel ops s' : legal_history ops -> Forall opR ops -> qrun rect fuel qstart ops = QDone s' -> stateR s' (book_run ops).
  Proof.
    intros L G E. unfold book_run. refine (run_ok rect (sideOf rect) linkOf binvR (inbOf rect) (fun _ => True) okboxR _ _ _ _ _ fuel ops _ _ _ _ L G E).
    - apply side_quadrant.
    - intros. now apply link_child.
    - intros b o _. apply dir_in.
    - apply clearR.
    - intros b c r o q B _ Gd. now apply (growR b c r o q).
    - apply start_ok.
  Qed.

  (** *** Termination *)
  Let tr (q : nat) (c : v2 R) (o : nat) : Prop := True.
  Notation lnk := (linkOf (T := R)).
  Definition settles {A} (f : nat -> outcome A) : Prop := exists f0 res, res <> QTimeout /\ forall n, f0 <= n -> f n = res.
  Definition small (k : nat) (r : v2 R) : Prop := (Rmin (x2 r) (y2 r) < / 20 * 2 ^ k)%R.
  Definition addT k := forall ns a o par t, wf ns par t -> inv tr lnk t -> ~ In o (aobjs t) -> small k (rad t) -> settles (fun f => addAt rect f ns a o (qidx t)).

  Lemma settles_now {A} (f : nat -> outcome A) res : res <> QTimeout -> (forall n, f (S n) = res) -> settles f.
  Proof. intros N E. exists 1, res. split; [exact N|]. intros n L. destruct n; [lia|apply E]. Qed.
  Lemma settles_step {A} (f g : nat -> outcome A) : settles f -> (forall n, g (S n) = f n) -> settles g.
  Proof. intros (f0 & res & N & E) S0. exists (S f0), res. split; [exact N|]. intros n L. destruct n; [lia|]. rewrite S0. apply E. lia. Qed.
  Lemma settles_bind {A B} (f : nat -> outcome A) (g : nat -> A -> outcome B) : settles f ->
    (forall f0 x, (forall n, f0 <= n -> f n = QDone x) -> settles (fun n => g n x)) -> settles (fun n => qbind (f n) (g n)).
  Proof.
    intros (f0 & res & N & E) K. destruct res as [| | |x]; [| |contradiction|].
    - exists f0, QFault. split; [discriminate|]. intros n L. now rewrite E.
    - exists f0, QFull. split; [discriminate|]. intros n L. now rewrite E.
    - destruct (K f0 x E) as (f1 & res & N1 & E1). exists (Nat.max f0 f1), res. split; [exact N1|]. intros n L. rewrite E by lia. cbn. apply E1. lia.
  Qed.
  Lemma tr_add fuel : add_ok rect tr lnk fuel /\ split_ok rect tr lnk fuel /\ loop_ok rect tr lnk fuel.
  Proof. apply add_effect; [unfold tr; auto|]. intros. now apply link_child. Qed.
  Lemma loop_step_inv ns a i os c r ch ks k o f ns1 a1 par : wf ns par (QI i os c r ch ks) -> inv tr lnk (QI i os c r ch ks) ->
    nth_error os k = Some o -> straddles rect c o = false ->
    addAt rect f ns a o (ch + quadrant rect c o) = QDone (ns1, a1) ->
    exists ks', nth_error ns1 i = Some (QN par (Some ch) os c r) /\
      wf (update ns1 i (QN par (Some ch) (swap_remove os k) c r)) par (QI i (swap_remove os k) c r ch ks') /\
      inv tr lnk (QI i (swap_remove os k) c r ch ks').
  Proof.
    intros W V Eo St Ea. assert (W' := W). destruct W' as [W1 W2 W3].
    destruct (kid_ex _ _ _ _ _ _ _ _ _ W1 (quadrant_lt rect c o)) as [tq Eq]. destruct (kid_wf _ _ _ _ _ _ _ _ _ _ W Eq) as [Wq Iq].
    cbn in W3. destruct (NoDup_app_kd _ _ W3) as (M1 & M2 & M3). pose proof (nth_error_In _ _ Eo) as Ioo.
    destruct (tr_add f) as [Ha _].
    assert (Noq : ~ In o (aobjs tq)) by (intros I0; apply (M3 o Ioo); exact (kid_in aobjs ks _ tq _ Eq I0)).
    destruct (Ha _ _ _ _ _ _ _ _ Wq Iq Noq Ea) as [tq' Et].
    destruct (lift_kid tr lnk ns a par i os c r ch ks _ tq o ns1 a1 tq' (swap_remove os k) W Eq Et) as (L1 & L2 & L3 & L4 & L5 & L6).
    pose proof (swap_remove_perm os k o Eo) as Sp. eexists; split; [exact L5|]. split.
    - constructor; [exact L1| |].
      + eapply Permutation_NoDup; [symmetry; exact L3|]. apply nodup_app; [apply seq_NoDup|exact W2|].
        intros j I1 I2. apply in_seq in I1. pose proof (rep_lt _ _ _ W1 j I2). lia.
      + cbn [aobjs]. eapply Permutation_NoDup; [|exact W3]. rewrite L6. rewrite <- Permutation_middle. exact (Permutation_app_tail (flat_map aobjs ks) Sp).
    - inversion V as [|? ? ? ? ? ? V1 V2 V3]; subst. constructor.
      + intros; exact I.
      + intros q1 t1 E1. destruct (update_nth _ _ _ _ _ _ Eq E1) as [[-> ->]|[N E2]]; [|now apply V2].
        rewrite (e_cen _ _ _ _ _ _ _ _ _ _ Et), (e_rad _ _ _ _ _ _ _ _ _ _ Et). now apply V2.
      + intros q1 t1 E1. destruct (update_nth _ _ _ _ _ _ Eq E1) as [[-> ->]|[N E2]]; [|now apply (V3 q1)].
        apply (e_inv _ _ _ _ _ _ _ _ _ _ Et). now apply (V3 _ tq Eq).
  Qed.
  Lemma half_small k r : small (S k) r -> small k (muls2 r nhalf).
  Proof.
    unfold small, muls2. cbn [x2 y2]. rsimpl. cbn [pow]. unfold Rmin. destruct (Rle_dec _ _), (Rle_dec _ _); lra.
  Qed.
  Lemma small_half k r : small k r -> small k (muls2 r nhalf).
  Proof.
    unfold small, muls2. cbn [x2 y2]. rsimpl. pose proof (pow_lt 2 k ltac:(lra)). set (z := (2 ^ k)%R) in *. unfold Rmin. destruct (Rle_dec _ _), (Rle_dec _ _); lra.
  Qed.
  Lemma loop_settles k : addT k -> forall m ns a i os c r ch ks idx par, length os - idx = m -> wf ns par (QI i os c r ch ks) -> inv tr lnk (QI i os c r ch ks) ->
    small (S k) r -> settles (fun f => splitLoop rect f ns a i idx).
  Proof.
    intros HA. induction m as [m IH] using lt_wf_ind. intros ns a i os c r ch ks idx par Em W V Sm.
    pose proof (rep_root _ _ _ (wf_rep _ _ _ W)) as En. cbn in En.
    destruct (nth_error os idx) as [o|] eqn:Eo.
    2: { apply (settles_now _ (QDone (ns, a))); [discriminate|]. intros n. cbn [splitLoop]. rewrite En. cbn [qobjs qchild]. now rewrite Eo. }
    pose proof (nth_some_lt _ _ _ Eo) as Li.
    destruct (straddles rect c o) eqn:St.
    - refine (settles_step (fun f => splitLoop rect f ns a i (S idx)) _ _ _).
      + apply (IH (length os - S idx)) with (os := os) (c := c) (r := r) (ch := ch) (ks := ks) (par := par); auto. lia.
      + intros n. cbn [splitLoop]. rewrite En. cbn [qobjs qchild qcenter]. now rewrite Eo, St.
    - refine (settles_step (fun f => qbind (addAt rect f ns a o (ch + quadrant rect c o)) (fun '(ns1, a1) =>
            match nth_error ns1 i with
            | None => QFault
            | Some nd1 => splitLoop rect f (update ns1 i (QN (qparent nd1) (qchild nd1) (swap_remove (qobjs nd1) idx) (qcenter nd1) (qradius nd1))) a1 i idx
            end)) _ _ _).
      2: { intros n. cbn [splitLoop]. rewrite En. cbn [qobjs qchild qcenter]. rewrite Eo, St. reflexivity. }
      destruct (kid_ex _ _ _ _ _ _ _ _ _ (wf_rep _ _ _ W) (quadrant_lt rect c o)) as [tq Eq]. destruct (kid_wf _ _ _ _ _ _ _ _ _ _ W Eq) as [Wq Iq].
      apply (settles_bind (fun f => addAt rect f ns a o (ch + quadrant rect c o))).
      + rewrite <- Iq. inversion V as [|? ? ? ? ? ? V1 V2 V3]; subst. apply (HA _ _ _ (Some i)); auto.
        * now apply (V3 _ _ Eq).
        * intros I0. destruct W as [_ _ W3]. cbn in W3. destruct (NoDup_app_kd _ _ W3) as (M1 & M2 & M3). apply (M3 o (nth_error_In _ _ Eo)). exact (kid_in aobjs ks _ tq _ Eq I0).
        * destruct (V2 _ _ Eq) as (_ & _ & ->). now apply half_small.
      + intros f0 [ns1 a1] E. specialize (E f0 (le_n _)). destruct (loop_step_inv _ _ _ _ _ _ _ _ _ _ _ _ _ _ W V Eo St E) as (ks' & E1 & W' & V').
        rewrite E1. cbn [qparent qchild qobjs qcenter qradius].
        pose proof (swap_remove_length os idx Li) as Ll.
        apply (IH (length (swap_remove os idx) - idx)) with (os := swap_remove os idx) (c := c) (r := r) (ch := ch) (ks := ks') (par := par); auto. lia.
  Qed.
  Lemma add_step k : (forall k', k' < k -> addT k') -> addT k.
  Proof.
    intros IHk ns a o par t. revert ns a o par. induction t as [t IHt] using (well_founded_induction (Wf_nat.well_founded_ltof _ (fun t : qtr (T := R) => length (aidx t)))).
    intros ns a o par W V No Sm. unfold Wf_nat.ltof in IHt. pose proof (rep_root _ _ _ (wf_rep _ _ _ W)) as En.
    destruct (straddles rect (cen t) o) eqn:St.
    { apply (settles_now _ (QDone (update ns (qidx t) (push (QN par (kid t) (own t) (cen t) (rad t)) o), set_assoc a o (Some (qidx t))))); [discriminate|].
      intros n. cbn [addAt]. rewrite En. cbn [qcenter]. now rewrite St. }
    destruct t as [i os c r|i os c r ch ks]; cbn [kid own cen rad qidx] in *.
    - destruct ((minQuadTreeNodeObjectCount <? length (os ++ [o])) && (nleb (nlit 1 20) (Min (x2 r) (y2 r)))) eqn:Cd.
      2: { apply (settles_now _ (QDone (update ns i (push (QN par None os c r) o), set_assoc a o (Some i)))); [discriminate|].
        intros n. cbn [addAt]. rewrite En. cbn [qcenter qchild qobjs qradius]. rewrite St, Cd. reflexivity. }
      apply andb_prop in Cd. destruct Cd as [Cd1 Cd2]. destruct k as [|k].
      { exfalso. unfold small in Sm. cbn [pow] in Sm. unfold Min in Cd2. rsimpl. unfold Rmin in Sm.
        revert Cd2. destruct (Rleb_spec (x2 r) (y2 r)); rewrite Rleb_true; destruct (Rle_dec (x2 r) (y2 r)); lra. }
      set (ns1 := update ns i (push (QN par None os c r) o)) in *.
      assert (W1 : wf ns1 par (QL i (os ++ [o]) c r)).
      { pose proof (push_leaf tr lnk ns a par _ o W No) as Pu. refine (e_wf tr lnk _ _ _ _ [o] _ _ _ W _ Pu). constructor; [assumption|apply W]. }
      pose proof (rep_root _ _ _ (wf_rep _ _ _ W1)) as En1. cbn in En1.
      refine (settles_step (fun f => splitAt rect f ns1 (set_assoc a o (Some i)) i) _ _ _).
      2: { intros n. cbn [addAt]. rewrite En. cbn [qcenter qchild qobjs qradius]. rewrite St, Cd1, Cd2. reflexivity. }
      destruct (Allocate ns1 (newGroup (Some i) c r)) as [| | |ns2] eqn:Ea.
      + exfalso. unfold Allocate in Ea. destruct (N.leb _ _); discriminate.
      + apply (settles_now _ QFull); [discriminate|]. intros n. cbn [splitAt]. rewrite En1. cbn [qcenter qradius]. now rewrite Ea.
      + exfalso. unfold Allocate in Ea. destruct (N.leb _ _); discriminate.
      + pose proof (split_effect tr lnk ltac:(intros; now apply link_child) ns1 (set_assoc a o (Some i)) i (os ++ [o]) c r par W1) as Se.
        assert (W2 := e_wf tr lnk _ _ _ _ [] _ _ _ W1 (wf_no _ _ _ W1) Se).
        assert (V2 : inv tr lnk (QI i (os ++ [o]) c r (length ns1) (freshKids (length ns1) c r))) by (apply (e_inv _ _ _ _ _ _ _ _ _ _ Se); constructor).
        refine (settles_step (fun f => splitLoop rect f (update ns2 i (QN par (Some (length ns1)) (os ++ [o]) c r)) (set_assoc a o (Some i)) i 0) _ _ _).
        2: { intros n. cbn [splitAt]. rewrite En1. cbn [qcenter qradius qparent qobjs]. rewrite Ea. reflexivity. }
        unfold Allocate in Ea. destruct (N.leb _ _); [|discriminate]. injection Ea as <-.
        refine (loop_settles k (IHk k (Nat.lt_succ_diag_r k)) _ _ _ _ _ _ _ _ _ _ _ eq_refl W2 V2 Sm).
    - destruct (kid_ex _ _ _ _ _ _ _ _ _ (wf_rep _ _ _ W) (quadrant_lt rect c o)) as [tq Eq]. destruct (kid_wf _ _ _ _ _ _ _ _ _ _ W Eq) as [Wq Iq].
      refine (settles_step (fun f => addAt rect f ns a o (ch + quadrant rect c o)) _ _ _).
      2: { intros n. cbn [addAt]. rewrite En. cbn [qcenter qchild qobjs qradius]. rewrite St. reflexivity. }
      rewrite <- Iq. inversion V as [|? ? ? ? ? ? V1 V2 V3]; subst. apply (IHt tq) with (par := Some i); auto.
      + cbn [aidx length]. destruct (nth_error_split ks _ Eq) as (l1 & l2 & -> & _). rewrite flat_map_app, app_length. cbn [flat_map]. rewrite app_length. lia.
      + now apply (V3 _ _ Eq).
      + intros I0. apply No. cbn. apply in_or_app. right. exact (kid_in aobjs ks _ tq _ Eq I0).
      + destruct (V2 _ _ Eq) as (_ & _ & ->). now apply small_half.
  Qed.
  Lemma add_settles k : addT k.
  Proof. induction k as [k IH] using lt_wf_ind. apply add_step. exact IH. Qed.
  Lemma small_ex r : exists k, small k r.
  Proof.
    unfold small. destruct (Pow_x_infinity 2 ltac:(rewrite Rabs_pos_eq; lra) (20 * Rabs (Rmin (x2 r) (y2 r)) + 1)) as [N HN].
    exists N. specialize (HN N (le_n _)). rewrite Rabs_pos_eq in HN by (apply pow_le; lra). pose proof (Rle_abs (Rmin (x2 r) (y2 r))). lra.
  Qed.
  (** Growing the root: every step takes one side of the object nearer by at least the smaller extent of the box. *)
  Definition lacks (b ob : aabb2 R) (m : R) (k0 k1 k2 k3 : nat) : Prop :=
    (x2 (min2 b) - x2 (min2 ob) <= INR k0 * m)%R /\ (x2 (max2 ob) - x2 (max2 b) <= INR k1 * m)%R /\
    (y2 (min2 b) - y2 (min2 ob) <= INR k2 * m)%R /\ (y2 (max2 ob) - y2 (max2 b) <= INR k3 * m)%R.
  Definition wide (b : aabb2 R) (m : R) : Prop := (m <= x2 (max2 b) - x2 (min2 b))%R /\ (m <= y2 (max2 b) - y2 (min2 b))%R.
  Lemma grow_lacks b ob m k0 k1 k2 k3 q : (0 < m)%R -> wide b m -> lacks b ob m k0 k1 k2 k3 -> growDirection b ob = Some q ->
    wide (growBound b q) m /\ exists j0 j1 j2 j3, lacks (growBound b q) ob m j0 j1 j2 j3 /\ j0 + j1 + j2 + j3 < k0 + k1 + k2 + k3.
  Proof.
    intros Pm [W0 W1] (L0 & L1 & L2 & L3) Gd.
    assert (S0 : forall k d, (d <= INR k * m)%R -> (0 < d)%R -> exists j, k = S j /\ (d - m <= INR j * m)%R).
    { intros [|j] d Hd Hp; [cbn in Hd; lra|]. exists j. split; [reflexivity|]. rewrite S_INR in Hd. lra. }
    unfold growDirection in Gd. rsimpl. destruct b as [[a0 a1] [b0 b1]], ob as [[c0 c1] [d0 d1]]. unfold lacks, wide in *. cbn [min2 max2 x2 y2] in *.
    destruct (Rleb_spec a0 c0) as [X0|X0]; [destruct (Rleb_spec d0 b0) as [X1|X1]; [destruct (Rleb_spec a1 c1) as [Y0|Y0]; [destruct (Rleb_spec d1 b1) as [Y1|Y1]|]|]|].
    - discriminate.
    - injection Gd as <-. cbn. rsimpl. destruct (S0 k3 _ L3 ltac:(lra)) as (j & -> & Hj). split; [lra|]. exists k0, k1, k2, j. split; [lra|lia].
    - injection Gd as <-. cbn. rsimpl. destruct (S0 k2 _ L2 ltac:(lra)) as (j & -> & Hj). split; [lra|]. exists k0, k1, j, k3. split; [lra|lia].
    - destruct (S0 k1 _ L1 ltac:(lra)) as (j & -> & Hj). destruct (Rltb_spec c1 a1); injection Gd as <-; cbn; rsimpl; (split; [lra|]); exists k0, j, k2, k3; (split; [lra|lia]).
    - destruct (S0 k0 _ L0 ltac:(lra)) as (j & -> & Hj). destruct (Rltb_spec c1 a1); injection Gd as <-; cbn; rsimpl; (split; [lra|]); exists j, k1, k2, k3; (split; [lra|lia]).
  Qed.
  Notation InvR := (Inv (sideOf rect) linkOf binvR (inbOf rect)).
  Lemma inv_tr t : inv (sideOf rect) lnk t -> inv tr lnk t.
  Proof. induction 1; constructor; auto. intros; exact I. Qed.
  Lemma Add_settles : forall n t a tree o m k0 k1 k2 k3, k0 + k1 + k2 + k3 = n -> ok_tree t a tree -> InvR (qbound t) tree -> ~ In o (aobjs tree) ->
    (0 < m)%R -> wide (qbound t) m -> lacks (qbound t) (rect o) m k0 k1 k2 k3 -> settles (fun f => QuadTree_Add rect f t a o).
  Proof.
    induction n as [n IH] using lt_wf_ind. intros t a tree o m k0 k1 k2 k3 En O V No Pm Wd Lk.
    assert (Ln : exists n0 ns0, qnodes t = n0 :: ns0).
    { destruct O as [[W1 _ _] Ir _ _ _]; apply rep_root in W1. destruct (qnodes t); [destruct (qidx tree); discriminate|eauto]. }
    destruct Ln as (n0' & ns0 & Eqn).
    destruct (growDirection (qbound t) (rect o)) as [q|] eqn:Gd.
    - pose proof (grow_lt _ _ _ Gd) as Lq.
      refine (settles_step (fun f => qbind (GrowImpl t a (growBound (qbound t) q) q) (fun '(t', a') => QuadTree_Add rect f t' a' o)) _ _ _).
      2: { intros f. cbn [QuadTree_Add]. rewrite Eqn, Gd. reflexivity. }
      destruct (GrowImpl t a (growBound (qbound t) q) q) as [| | |[t1 a1]] eqn:Eg.
      + exists 0, QFault. split; [discriminate|reflexivity].
      + exists 0, QFull. split; [discriminate|reflexivity].
      + exfalso. unfold GrowImpl in Eg. destruct (nth_error _ _); [|discriminate]. destruct (nth_error _ _); [|discriminate]. unfold Allocate in Eg. destruct (N.leb _ _); discriminate.
      + cbn [qbind]. destruct (grow_ok _ _ _ _ _ _ _ O Lq Eg) as (O1 & Bt & F1).
        destruct (grow_lacks _ _ _ _ _ _ _ _ Pm Wd Lk Gd) as (Wd1 & j0 & j1 & j2 & j3 & Lk1 & Lt).
        pose proof (inv_grown rect (sideOf rect) linkOf binvR (inbOf rect) (fun _ => True) ltac:(intros; now apply link_child)
          ltac:(intros ? ? ? ? ? B _ G; now apply (growR _ _ _ _ _ B G)) _ _ _ _ (length (qnodes t)) (qroot t) V I Gd) as V1.
        cbn zeta in *. rewrite <- Bt in V1 at 1. rewrite <- Bt in Wd1, Lk1.
        eapply (IH (j0 + j1 + j2 + j3)); [lia|reflexivity|exact O1|exact V1|now rewrite objs_grown|exact Pm|exact Wd1|exact Lk1].
    - assert (Sa : settles (fun f => qbind (addAt rect f (qnodes t) a o (qroot t)) (fun '(ns, a') => QDone (Qt ns (qroot t) (qbound t), a')))).
      { apply (settles_bind (fun f => addAt rect f (qnodes t) a o (qroot t))).
        - rewrite <- (ot_root _ _ _ O). destruct (small_ex (rad tree)) as [k Sk]. apply (add_settles k _ _ _ None); auto; [apply O|]. apply inv_tr. apply V.
        - intros f0 [ns1 a1] _. exists 0. eexists. split; [|reflexivity]. discriminate. }
      destruct Sa as (f0 & res & N & E). exists f0, res. split; [exact N|]. intros f Lf. rewrite <- (E f Lf). destruct f; cbn [QuadTree_Add]; rewrite Eqn, Gd; reflexivity.
  Qed.
  Lemma inr_ex d m : (0 < m)%R -> exists k, (d <= INR k * m)%R.
  Proof.
    intros Pm. destruct (archimed (d / m)) as [A _]. exists (Z.to_nat (up (d / m))).
    assert (d / m <= INR (Z.to_nat (up (d / m))))%R.
    { rewrite INR_IZR_INZ. destruct (Z_le_gt_dec 0 (up (d / m))); [rewrite Z2Nat.id by assumption; lra|].
      replace (Z.to_nat (up (d / m))) with 0 by lia. cbn. assert (IZR (up (d / m)) <= 0)%R by (apply IZR_le; lia). lra. }
    replace d with (d / m * m)%R at 1 by (field; lra). apply Rmult_le_compat_r; lra.
  Qed.
  Lemma run_settles : forall ops s bk, stateR s bk -> legal_from bk ops -> Forall opR ops -> settles (fun f => qrun rect f s ops).
  Proof.
    induction ops as [|op ops IH]; intros s bk O L G; cbn [qrun]; [exists 0, (QDone s); split; [discriminate|reflexivity]|].
    inversion G as [|? ? G1 G2]; subst. destruct L as [L1 L2].
    apply (settles_bind (fun f => qstep rect f s op)).
    - destruct s as [t a]. destruct op as [mn mx|o|o]; cbn [qstep fst snd].
      + exists 0. eexists. split; [|reflexivity]. discriminate.
      + destruct L1 as [Lc Lo]. destruct (os_tree _ _ _ _ _ _ O Lc) as (tree & Ot & V & P). cbn [fst snd] in *.
        assert (No : ~ In o (aobjs tree)) by (intros I0; apply Lo; now apply (Permutation_in _ P)).
        assert (V' := V). destruct V' as (_ & (B1 & B2 & _) & _). set (b := qbound t) in *.
        set (m := Rmin (x2 (max2 b) - x2 (min2 b)) (y2 (max2 b) - y2 (min2 b))).
        assert (Pm : (0 < m)%R) by (apply Rmin_pos; lra).
        destruct (inr_ex (x2 (min2 b) - x2 (min2 (rect o))) m Pm) as [k0 K0]. destruct (inr_ex (x2 (max2 (rect o)) - x2 (max2 b)) m Pm) as [k1 K1].
        destruct (inr_ex (y2 (min2 b) - y2 (min2 (rect o))) m Pm) as [k2 K2]. destruct (inr_ex (y2 (max2 (rect o)) - y2 (max2 b)) m Pm) as [k3 K3].
        eapply Add_settles with (m := m) (k0 := k0) (k1 := k1) (k2 := k2) (k3 := k3); eauto.
        * split; [apply Rmin_l|apply Rmin_r].
        * repeat split; assumption.
      + exists 0. exists (QuadTree_Remove t a o). split; [|reflexivity]. unfold QuadTree_Remove.
        repeat match goal with |- context [match ?x with _ => _ end] => destruct x end; discriminate.
    - intros f0 s1 E. apply (IH s1 (book_step bk op)); auto.
      refine (step_ok rect (sideOf rect) linkOf binvR (inbOf rect) (fun _ => True) okboxR _ _ _ _ _ f0 s bk op s1 O L1 G1 (E f0 (le_n _))).
      + apply side_quadrant.
      + intros. now apply link_child.
      + intros b o _. apply dir_in.
      + apply clearR.
      + intros b c r o q B _ Gd. now apply (growR b c r o q).
  Qed.
End Real.
