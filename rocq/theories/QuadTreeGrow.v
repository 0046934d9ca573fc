(** Lemmas for the quadtree properties, continued: no invalid access, root growth, removal and clearing. *)
From Coq Require Import ZArith Bool List Permutation Lia.
From Verif Require Import Num ScalarModel Vec2Model KdTreeModel KdTreeProofs QuadTreeModel QuadTreeProofs.
Import ListNotations.
Ltac Zify.zify_post_hook ::= idtac.
Local Open Scope nat_scope.

Arguments qidx {T}. Arguments own {T}. Arguments cen {T}. Arguments rad {T}. Arguments kid {T}. Arguments aidx {T}. Arguments aobjs {T}.
Arguments qrep {T}. Arguments holds {T}. Arguments home {T}. Arguments wf {T}. Arguments QL {T}. Arguments QI {T}.

Ltac eqbs := repeat match goal with |- context [?x =? ?y] => destruct (Nat.eqb_spec x y); try (exfalso; lia) end.
Section QtG.
  Context {T : Type} `{NT : Num T}.
  Variable rect : nat -> aabb2 T.
  Implicit Types (ns : list (qnode T)) (c r : v2 T) (ks : list (qtr (T := T))) (tree tq : qtr (T := T)).
  Let tr (q : nat) (c : v2 T) (o : nat) : Prop := True.
  Let tl (q : nat) (c r c' r' : v2 T) : Prop := True.

  (** *** Insertion never faults *)
  Lemma add_eff0 fuel : add_ok rect tr tl fuel /\ split_ok rect tr tl fuel /\ loop_ok rect tr tl fuel.
  Proof. apply add_effect; unfold tr, tl; auto. Qed.

  Definition nf_add fuel := forall ns a o n par t, wf ns par t -> qidx t = n -> ~ In o (aobjs t) -> addAt rect fuel ns a o n <> QFault.
  Definition nf_split fuel := forall ns a i os c r par, wf ns par (QL i os c r) -> splitAt rect fuel ns a i <> QFault.
  Definition nf_loop fuel := forall ns a i os c r ch ks k par, wf ns par (QI i os c r ch ks) -> splitLoop rect fuel ns a i k <> QFault.

  (** The node array right after a leaf was split, before its objects are distributed. *)
  Lemma split_pre ns (a : assocs) i os c r par : wf ns par (QL i os c r) ->
    effect tr tl ns a par (QL i os c r) [] (update (ns ++ newGroup (Some i) c r) i (QN par (Some (length ns)) os c r)) a
      (QI i os c r (length ns) (freshKids (length ns) c r)).
  Proof. apply split_effect. unfold tl. auto. Qed.

  Lemma kid_wf ns par i os c r ch ks q tq : wf ns par (QI i os c r ch ks) -> nth_error ks q = Some tq -> wf ns (Some i) tq /\ qidx tq = ch + q.
  Proof.
    intros [W1 W2 W3] Eq. inversion W1 as [|? ? ? ? ? ? ? En Lk Ix Rk]; subst. cbn in W2, W3. inversion W2; subst.
    destruct (NoDup_app_kd _ _ W3) as (M1 & M2 & M3). split; [|now apply Ix].
    constructor; [now apply (Rk q)|now apply (nodup_kid aidx ks q)|now apply (nodup_kid aobjs ks q)].
  Qed.
  Lemma kid_ex ns par i os c r ch ks q : qrep ns par (QI i os c r ch ks) -> q < 4 -> exists tq, nth_error ks q = Some tq.
  Proof.
    intros W1 Lq. inversion W1 as [|? ? ? ? ? ? ? En Lk Ix Rk]; subst. destruct (nth_error ks q) eqn:E; [eauto|]. apply nth_error_None in E. lia.
  Qed.
  (** One step of the distribution loop. *)
  Lemma loop_step ns a i os c r ch ks k o f ns1 a1 par : wf ns par (QI i os c r ch ks) -> nth_error os k = Some o -> straddles rect c o = false ->
    addAt rect f ns a o (ch + quadrant rect c o) = QDone (ns1, a1) ->
    exists ks', nth_error ns1 i = Some (QN par (Some ch) os c r) /\ wf (update ns1 i (QN par (Some ch) (swap_remove os k) c r)) par (QI i (swap_remove os k) c r ch ks').
  Proof.
    intros W Eo St Ea. assert (W' := W). destruct W' as [W1 W2 W3].
    destruct (kid_ex _ _ _ _ _ _ _ _ _ W1 (quadrant_lt rect c o)) as [tq Eq]. destruct (kid_wf _ _ _ _ _ _ _ _ _ _ W Eq) as [Wq Iq].
    cbn in W3. destruct (NoDup_app_kd _ _ W3) as (M1 & M2 & M3). pose proof (nth_error_In _ _ Eo) as Ioo.
    destruct (add_eff0 f) as [Ha _]. 
    assert (Noq : ~ In o (aobjs tq)) by (intros I; apply (M3 o Ioo); exact (kid_in aobjs ks _ tq _ Eq I)).
    destruct (Ha _ _ _ _ _ _ _ _ Wq Iq Noq Ea) as [tq' Et].
    destruct (lift_kid tr tl ns a par i os c r ch ks _ tq o ns1 a1 tq' (swap_remove os k) W Eq Et) as (L1 & L2 & L3 & L4 & L5 & L6).
    pose proof (swap_remove_perm os k o Eo) as Sp. eexists; split; [exact L5|]. constructor; [exact L1| |].
    - eapply Permutation_NoDup; [symmetry; exact L3|]. apply nodup_app; [apply seq_NoDup|exact W2|].
      intros j I1 I2. apply in_seq in I1. pose proof (rep_lt _ _ _ W1 j I2). lia.
    - cbn [aobjs]. eapply Permutation_NoDup; [|exact W3]. rewrite L6. rewrite <- Permutation_middle. exact (Permutation_app_tail (flat_map aobjs ks) Sp).
  Qed.
  Lemma no_fault fuel : nf_add fuel /\ nf_split fuel /\ nf_loop fuel.
  Proof.
    induction fuel as [|f (I1 & I2 & I3)]; [repeat split; intros *; intros; discriminate|]. split; [|split].
    - intros ns a o n par t W In_ No. subst n. cbn [addAt]. rewrite (rep_root _ _ _ (wf_rep _ _ _ W)). cbn [qcenter qchild qobjs qradius push].
      destruct (straddles _ _ _); [discriminate|]. destruct t as [i os c r|i os c r ch ks]; cbn [kid own cen rad qidx].
      + destruct (_ && _); [|discriminate]. apply (I2 _ _ i (os ++ [o]) c r par). pose proof (push_leaf tr tl ns a par _ o W No) as Pu.
        refine (e_wf tr tl _ _ _ _ [o] _ _ _ W _ Pu). constructor; [assumption|apply W].
      + destruct (kid_ex _ _ _ _ _ _ _ _ _ (wf_rep _ _ _ W) (quadrant_lt rect c o)) as [tq Eq]. destruct (kid_wf _ _ _ _ _ _ _ _ _ _ W Eq) as [Wq Iq].
        apply (I1 _ _ _ _ (Some i) tq); auto. intros I. apply No. cbn. apply in_or_app. right. exact (kid_in aobjs ks _ tq _ Eq I).
    - intros ns a i os c r par W. cbn [splitAt]. pose proof (rep_root _ _ _ (wf_rep _ _ _ W)) as En. cbn in En. rewrite En.
      unfold Allocate. destruct (N.leb _ _); [|discriminate]. cbn [qbind qparent qcenter qradius qobjs].
      apply (I3 _ _ i os c r (length ns) (freshKids (length ns) c r) 0 par).
      refine (e_wf tr tl _ _ _ _ [] _ _ _ W _ (split_pre _ a _ _ _ _ _ W)). apply W.
    - intros ns a i os c r ch ks k par W. cbn [splitLoop]. pose proof (rep_root _ _ _ (wf_rep _ _ _ W)) as En. cbn in En. rewrite En.
      cbn [qobjs qchild qcenter]. destruct (nth_error os k) as [o|] eqn:Eo; [|discriminate].
      destruct (straddles rect c o) eqn:St; [eapply I3; eassumption|].
      match goal with |- qbind ?x _ <> _ => change x with (addAt rect f ns a o (ch + quadrant rect c o)) end.
      destruct (addAt rect f ns a o (ch + quadrant rect c o)) as [| | |[ns1 a1]] eqn:Ea; cbn [qbind]; try discriminate.
      + exfalso. destruct (kid_ex _ _ _ _ _ _ _ _ _ (wf_rep _ _ _ W) (quadrant_lt rect c o)) as [tq Eq]. destruct (kid_wf _ _ _ _ _ _ _ _ _ _ W Eq) as [Wq Iq].
        apply (I1 ns a o _ (Some i) tq Wq Iq) in Ea; auto. intros I. destruct W as [_ _ W3]. cbn in W3. destruct (NoDup_app_kd _ _ W3) as (M1 & M2 & M3).
        apply (M3 o (nth_error_In _ _ Eo)). exact (kid_in aobjs ks _ tq _ Eq I).
      + destruct (loop_step ns a i os c r ch ks k o f ns1 a1 par W Eo St Ea) as (ks' & E1 & W'). rewrite E1. cbn [qparent qchild qobjs qcenter qradius].
        eapply I3. exact W'.
  Qed.

  (** *** The invariant of a tree after Clear *)
  Record ok_tree (t : qt (T := T)) (a : assocs) (tree : qtr) : Prop := OkTree {
    ot_wf : wf (qnodes t) None tree;
    ot_root : qidx tree = qroot t;
    ot_blank : forall j, 1 <= j <= 3 -> ~ In (qroot t + j) (aidx tree) /\ exists par c r, nth_error (qnodes t) (qroot t + j) = Some (QN par None [] c r);
    ot_cover : forall j, j < length (qnodes t) -> In j (aidx tree) \/ qroot t + 1 <= j <= qroot t + 3;
    ot_home : home a tree }.

  Lemma clear_ok (mn mx : v2 T) (a : assocs) :
    let c := muls2 (add2 mn mx) nhalf in ok_tree (QuadTree_Clear mn mx) a (QL 0 [] c (sub2 mx c)).
  Proof.
    intros c. constructor.
    - constructor; [now constructor|repeat constructor; intros []|constructor].
    - reflexivity.
    - intros j Lj. cbn [aidx QuadTree_Clear qroot]. split; [intros [E|[]]; lia|]. exists None, (V2 n0 n0), (V2 n0 n0).
      destruct j as [|[|[|[|j]]]]; try lia; reflexivity.
    - intros j Lj. cbn in Lj. cbn [aidx QuadTree_Clear qroot]. destruct j as [|j]; [left; now left|right; lia].
    - intros j p Hp. inversion Hp; subst. contradiction.
  Qed.

  Lemma add_root (side : nat -> v2 T -> nat -> Prop) (link : nat -> v2 T -> v2 T -> v2 T -> v2 T -> Prop) (Hs : forall c o, straddles rect c o = false -> side (quadrant rect c o) c o)
    (Hl : forall q c r, q < 4 -> link q c r (childc q c (muls2 r nhalf)) (muls2 r nhalf)) fuel t a o tree ns' a' :
    ok_tree t a tree -> ~ In o (aobjs tree) -> addAt rect fuel (qnodes t) a o (qroot t) = QDone (ns', a') ->
    exists tree', ok_tree (Qt ns' (qroot t) (qbound t)) a' tree' /\ effect side link (qnodes t) a None tree [o] ns' a' tree'.
  Proof.
    intros O No E. destruct (add_effect rect side link Hs Hl fuel) as [Ha _].
    destruct (Ha _ _ _ _ _ _ _ _ (ot_wf _ _ _ O) (ot_root _ _ _ O) No E) as [tree' Et]. exists tree'. split; [|exact Et].
    assert (W' : wf ns' None tree') by (refine (e_wf side link _ _ _ _ [o] _ _ _ (ot_wf _ _ _ O) _ Et); constructor; [assumption|apply O]).
    constructor; cbn [qnodes qroot]; auto.
    - rewrite (e_idx _ _ _ _ _ _ _ _ _ _ Et). apply O.
    - intros j Lj. destruct (ot_blank _ _ _ O j Lj) as (N1 & par & c & r & E1). pose proof (nth_some_lt _ _ _ E1) as L1. split.
      + intros I. apply (Permutation_in _ (e_new _ _ _ _ _ _ _ _ _ _ Et)) in I. apply in_app_or in I. destruct I as [I|I]; [apply in_seq in I; lia|contradiction].
      + exists par, c, r. now rewrite (e_old _ _ _ _ _ _ _ _ _ _ Et).
    - intros j Lj. destruct (Nat.lt_ge_cases j (length (qnodes t))) as [L|G].
      + destruct (ot_cover _ _ _ O j L) as [I|I]; [left|now right]. apply (Permutation_in _ (Permutation_sym (e_new _ _ _ _ _ _ _ _ _ _ Et))).
        apply in_or_app. now right.
      + left. apply (Permutation_in _ (Permutation_sym (e_new _ _ _ _ _ _ _ _ _ _ Et))). apply in_or_app. left. apply in_seq. lia.
    - apply (e_home _ _ _ _ _ _ _ _ _ _ Et). apply O.
  Qed.

  (** *** Root growth *)
  Definition reroot (t : qtr) (i : nat) (c r : v2 T) : qtr :=
    match t with QL _ os _ _ => QL i os c r | QI _ os _ _ ch ks => QI i os c r ch ks end.
  Definition grown (n root q : nat) (t : qtr) (c r : v2 T) : qtr :=
    QI n [] c r root (map (fun j => let c' := childc j c (muls2 r nhalf) in
                                    if Nat.eqb j q then reroot t (root + j) c' (muls2 r nhalf) else QL (root + j) [] c' (muls2 r nhalf)) [0; 1; 2; 3]).

  Lemma nth_update {A} (l : list A) i x j : nth_error (update l i x) j = if (i =? j) && (j <? length l) then Some x else nth_error l j.
  Proof.
    destruct (Nat.eqb_spec i j) as [<-|N]; cbn [andb]; [|now apply update_neq].
    destruct (Nat.ltb_spec i (length l)) as [L|G]; [now apply update_eq|].
    rewrite (proj2 (nth_error_None _ _)) by (rewrite update_length; lia). symmetry. apply nth_error_None. lia.
  Qed.
  Lemma nth_update_some {A} (l : list A) i x y j : nth_error l i = Some y -> nth_error (update l i x) j = if i =? j then Some x else nth_error l j.
  Proof.
    intros E. rewrite nth_update. destruct (Nat.eqb_spec i j) as [<-|N]; cbn [andb]; [|reflexivity].
    apply nth_some_lt in E. apply Nat.ltb_lt in E. now rewrite E.
  Qed.
  Definition setp (p : option nat) (nd : qnode T) := QN p (qchild nd) (qobjs nd) (qcenter nd) (qradius nd).
  Lemma nth_set_parent p (ns : list (qnode T)) i j : nth_error (set_parent p ns i) j = if i =? j then option_map (setp p) (nth_error ns j) else nth_error ns j.
  Proof.
    unfold set_parent. destruct (nth_error ns i) as [nd|] eqn:E.
    - rewrite (nth_update_some _ _ _ _ _ E). destruct (Nat.eqb_spec i j) as [<-|N]; [rewrite E; reflexivity|reflexivity].
    - destruct (Nat.eqb_spec i j) as [<-|N]; [rewrite E; reflexivity|reflexivity].
  Qed.
  Lemma set_parent_length p (ns : list (qnode T)) i : length (set_parent p ns i) = length ns.
  Proof. unfold set_parent. destruct (nth_error ns i); [apply update_length|reflexivity]. Qed.
  Lemma nth_place root rc rr base (ns : list (qnode T)) q j : q < 4 -> nth_error (place_child root rc rr base ns q) j =
    if base + q =? j then option_map (fun nd => QN (Some root) (qchild nd) (qobjs nd) (childc q rc (muls2 rr nhalf)) (muls2 rr nhalf)) (nth_error ns j) else nth_error ns j.
  Proof.
    intros Lq. unfold place_child. destruct (nth_error ns (base + q)) as [nd|] eqn:E.
    - rewrite (nth_update_some _ _ _ _ _ E). destruct (Nat.eqb_spec (base + q) j) as [<-|N]; [rewrite E|reflexivity].
      destruct q as [|[|[|[|q]]]]; try lia; reflexivity.
    - destruct (Nat.eqb_spec (base + q) j) as [<-|N]; [rewrite E; reflexivity|reflexivity].
  Qed.
  Lemma place_length root rc rr base (ns : list (qnode T)) q : length (place_child root rc rr base ns q) = length ns.
  Proof. unfold place_child. destruct (nth_error ns (base + q)); [apply update_length|reflexivity]. Qed.

  Lemma reparent ns ns' p p' k : qrep ns p k -> NoDup (aidx k) -> (forall j, In j (aidx k) -> j <> qidx k -> nth_error ns' j = nth_error ns j) ->
    nth_error ns' (qidx k) = option_map (setp p') (nth_error ns (qidx k)) -> qrep ns' p' k.
  Proof.
    intros W Nd F E. destruct W as [par i os c r En|par i os c r ch ks En Lk Ix Rk]; cbn [qidx] in *; rewrite En in E; cbn in E.
    - now constructor.
    - constructor; auto. intros q t Eq. apply (frame ns); [now apply (Rk q)|]. intros j Ij. apply F.
      + cbn. right. now apply (kid_in aidx ks q t).
      + intros ->. cbn in Nd. inversion Nd; subst. apply H1. now apply (kid_in aidx ks q t).
  Qed.
  Lemma fold_assoc n l (a : assocs) p : fold_left (fun a o => set_assoc a o (Some n)) l a p = if existsb (Nat.eqb p) l then Some n else a p.
  Proof.
    revert a. induction l as [|x l IH]; intros a; cbn; [reflexivity|]. rewrite IH. unfold set_assoc at 1.
    destruct (p =? x), (existsb (Nat.eqb p) l); reflexivity.
  Qed.
  Lemma existsb_in p l : existsb (Nat.eqb p) l = true <-> In p l.
  Proof. rewrite existsb_exists. split; [intros (x & I & E); apply Nat.eqb_eq in E; now subst|intros I; exists p; now rewrite Nat.eqb_refl]. Qed.

  (** The nodes before placing the children: what is stored at each index. *)
  Definition moved (ns : list (qnode T)) (root q : nat) (rn d : qnode T) : list (qnode T) :=
    let ns := if Nat.eqb q 0 then ns else update (update ns root d) (root + q) rn in
    match (if Nat.eqb q 0 then None else qchild rn) with
    | Some c => set_parent (Some (root + q)) (set_parent (Some (root + q)) (set_parent (Some (root + q)) (set_parent (Some (root + q)) ns c) (c + 1)) (c + 2)) (c + 3)
    | None => ns
    end.
  Lemma moved_length ns root q rn d : length (moved ns root q rn d) = length ns.
  Proof.
    unfold moved. destruct (q =? 0); [reflexivity|]. destruct (qchild rn); rewrite ?set_parent_length, !update_length; reflexivity.
  Qed.
  Lemma moved_at ns root q rn d j : nth_error ns root = Some rn -> nth_error ns (root + q) = Some d ->
    (forall c : nat, qchild rn = Some c -> forall m, m < 4 -> c + m <> root /\ c + m <> root + q) ->
    nth_error (moved ns root q rn d) j =
      if j =? root + q then Some rn else if j =? root then Some d
      else match qchild rn with
           | Some c => if (c <=? j) && (j <? c + 4) && negb (q =? 0) then option_map (setp (Some (root + q))) (nth_error ns j) else nth_error ns j
           | None => nth_error ns j
           end.
  Proof.
    intros Er Ed Hc. unfold moved. destruct (Nat.eqb_spec q 0) as [->|Nq]; cbn [negb andb].
    - destruct (Nat.eqb_spec j (root + 0)) as [->|N0]; [now rewrite Nat.add_0_r|]. destruct (Nat.eqb_spec j root) as [->|N1]; [lia|].
      destruct (qchild rn); [|reflexivity]. now rewrite andb_false_r.
    - assert (E0 : forall j, nth_error (update (update ns root d) (root + q) rn) j = if j =? root + q then Some rn else if j =? root then Some d else nth_error ns j).
      { intros k. rewrite nth_update, update_length. pose proof (nth_some_lt _ _ _ Ed) as L1. pose proof (nth_some_lt _ _ _ Er) as L2.
        destruct (Nat.eqb_spec (root + q) k) as [<-|N0]; cbn [andb].
        - rewrite Nat.eqb_refl. apply Nat.ltb_lt in L1. now rewrite L1.
        - destruct (Nat.eqb_spec k (root + q)); [lia|]. rewrite nth_update. destruct (Nat.eqb_spec root k) as [<-|N1]; cbn [andb].
          + rewrite Nat.eqb_refl. apply Nat.ltb_lt in L2. now rewrite L2.
          + destruct (Nat.eqb_spec k root); [lia|reflexivity]. }
      destruct (qchild rn) as [c|] eqn:Ec; [|apply E0].
      rewrite !nth_set_parent, !E0. specialize (Hc c eq_refl).
      pose proof (Hc 0 ltac:(lia)) as H0. pose proof (Hc 1 ltac:(lia)) as H1. pose proof (Hc 2 ltac:(lia)) as H2. pose proof (Hc 3 ltac:(lia)) as H3.
      destruct (Nat.eqb_spec j (root + q)) as [->|N0].
      { destruct (Nat.eqb_spec (c + 3) (root + q)), (Nat.eqb_spec (c + 2) (root + q)), (Nat.eqb_spec (c + 1) (root + q)), (Nat.eqb_spec c (root + q)); try lia. reflexivity. }
      destruct (Nat.eqb_spec j root) as [->|N1].
      { destruct (Nat.eqb_spec (c + 3) root), (Nat.eqb_spec (c + 2) root), (Nat.eqb_spec (c + 1) root), (Nat.eqb_spec c root); try lia. reflexivity. }
      destruct (Nat.leb_spec c j), (Nat.ltb_spec j (c + 4)); cbn [andb].
      + destruct (Nat.eqb_spec (c + 3) j), (Nat.eqb_spec (c + 2) j), (Nat.eqb_spec (c + 1) j), (Nat.eqb_spec c j); try lia; reflexivity.
      + destruct (Nat.eqb_spec (c + 3) j), (Nat.eqb_spec (c + 2) j), (Nat.eqb_spec (c + 1) j), (Nat.eqb_spec c j); try lia; reflexivity.
      + destruct (Nat.eqb_spec (c + 3) j), (Nat.eqb_spec (c + 2) j), (Nat.eqb_spec (c + 1) j), (Nat.eqb_spec c j); try lia; reflexivity.
      + destruct (Nat.eqb_spec (c + 3) j), (Nat.eqb_spec (c + 2) j), (Nat.eqb_spec (c + 1) j), (Nat.eqb_spec c j); try lia; reflexivity.
  Qed.
  Definition placed (n : nat) (rc rr : v2 T) (root : nat) (ns : list (qnode T)) : list (qnode T) :=
    place_child n rc rr root (place_child n rc rr root (place_child n rc rr root (place_child n rc rr root ns 0) 1) 2) 3.
  Lemma placed_at n rc rr root ns j : nth_error (placed n rc rr root ns) j =
    if (root <=? j) && (j <? root + 4) then
      option_map (fun nd => QN (Some n) (qchild nd) (qobjs nd) (childc (j - root) rc (muls2 rr nhalf)) (muls2 rr nhalf)) (nth_error ns j)
    else nth_error ns j.
  Proof.
    unfold placed. rewrite !nth_place by lia.
    destruct (Nat.leb_spec root j), (Nat.ltb_spec j (root + 4)); cbn [andb].
    - assert (J : j = root + 0 \/ j = root + 1 \/ j = root + 2 \/ j = root + 3) by lia.
      assert (D : forall k, root + k - root = k) by (intros; lia).
      destruct J as [->|[->|[->| ->]]]; rewrite D;
      eqbs; reflexivity.
    - eqbs; reflexivity.
    - eqbs; reflexivity.
    - eqbs; reflexivity.
  Qed.
  Lemma rep_kids ns par i os c r ch ks : qrep ns par (QI i os c r ch ks) -> length ks = 4 /\
    (forall q t, nth_error ks q = Some t -> qidx t = ch + q) /\ (forall q t, nth_error ks q = Some t -> qrep ns (Some i) t).
  Proof. inversion 1; auto. Qed.
  Lemma grown_kid root q (t : qtr (T := T)) c r q1 t1 :
    nth_error (map (fun j => let c' := childc j c (muls2 r nhalf) in
                    if Nat.eqb j q then reroot t (root + j) c' (muls2 r nhalf) else QL (root + j) [] c' (muls2 r nhalf)) [0; 1; 2; 3]) q1 = Some t1 ->
    q1 < 4 /\ t1 = if Nat.eqb q1 q then reroot t (root + q1) (childc q1 c (muls2 r nhalf)) (muls2 r nhalf) else QL (root + q1) [] (childc q1 c (muls2 r nhalf)) (muls2 r nhalf).
  Proof.
    intros E. assert (L : q1 < 4) by (change 4 with (length [0; 1; 2; 3]); rewrite <- (map_length (fun j => let c' := childc j c (muls2 r nhalf) in
                    if Nat.eqb j q then reroot t (root + j) c' (muls2 r nhalf) else QL (root + j) [] c' (muls2 r nhalf))); apply nth_error_Some; rewrite E; discriminate).
    split; [exact L|]. destruct q1 as [|[|[|[|q1]]]]; cbn [nth_error map] in E; try lia; congruence.
  Qed.
  Lemma reroot_idx (t : qtr (T := T)) i c r : qidx (reroot t i c r) = i. Proof. destruct t; reflexivity. Qed.
  (** The grown tree represents the old one below a new root. *)
  Lemma grow_ok t a tree b q t' a' : ok_tree t a tree -> q < 4 -> GrowImpl t a b q = QDone (t', a') ->
    let c := muls2 (add2 (min2 b) (max2 b)) nhalf in let r := sub2 (max2 b) c in
    ok_tree t' a' (grown (length (qnodes t)) (qroot t) q tree c r) /\ qbound t' = b /\ (forall p, ~ In p (own tree) -> a' p = a p).
  Proof.
    intros O Lq E c r. destruct O as [[W1 W2 W3] Ir Bl Cv Hm]. unfold GrowImpl in E.
    pose proof (rep_root _ _ _ W1) as Er. rewrite Ir in Er. rewrite Er in E.
    set (rn := QN None (kid tree) (own tree) (cen tree) (rad tree)) in *.
    set (root := qroot t) in *. set (ns := qnodes t) in *.
    assert (Ed : exists par0 c0 r0 ch0 os0, nth_error ns (root + q) = Some (QN par0 ch0 os0 c0 r0) /\ (q <> 0 -> ch0 = None /\ os0 = [])).
    { destruct q as [|q]; [rewrite Nat.add_0_r; do 5 eexists; split; [exact Er|lia]|].
      destruct (Bl (S q) ltac:(lia)) as (_ & par0 & c0 & r0 & E0). exists par0, c0, r0, None, []. auto. }
    destruct Ed as (par0 & c0 & r0 & ch0 & os0 & Ed & Bd). rewrite Ed in E. set (d := QN par0 ch0 os0 c0 r0) in *.
    fold (moved ns root q rn d) in E.
    match type of E with context [Allocate ?x _] => change x with (moved ns root q rn d) in E end.
    apply qbind_done in E. destruct E as (ns1 & Ea & E). unfold Allocate in Ea. destruct (N.leb _ _); [|discriminate].
    fold c in Ea, E. fold r in Ea, E. assert (E1 : ns1 = moved ns root q rn d ++ QN None (Some root) [] c r :: List.tl blankGroup) by congruence. clear Ea.
    fold c r in E. rewrite moved_length in E.
    match type of E with QDone (?x, ?y) = _ => assert (E2 : t' = x) by congruence; assert (E3 : a' = y) by congruence end. clear E.
    set (n := length ns) in *.
    assert (Nr : forall j, 1 <= j <= 3 -> ~ In (root + j) (aidx tree)) by (intros j Lj; apply (Bl j Lj)).
    assert (Lb : root + 3 < n). { destruct (Bl 3 ltac:(lia)) as (_ & p3 & c3 & r3 & E4). now apply nth_some_lt in E4. }
    assert (Hch : forall ch : nat, qchild rn = Some ch -> forall m, m < 4 -> In (ch + m) (aidx tree) /\ ch + m <> root).
    { intros ch Ec m Lm. destruct tree as [i os c1 r1|i os c1 r1 ch1 ks]; [discriminate|]. cbn in Ec. injection Ec as ->.
      destruct (kid_ex _ _ _ _ _ _ _ _ _ W1 Lm) as [tm Em]. inversion W1 as [|? ? ? ? ? ? ? En Lk Ix Rk]; subst. rewrite <- (Ix _ _ Em).
      pose proof (kid_in aidx ks m tm _ Em (qidx_in tm)) as I. split; [now right|]. cbn in W2, Ir. inversion W2; subst. intros E0. apply H1. rewrite E0 in I. exact I. }
    assert (Hch' : forall ch : nat, qchild rn = Some ch -> forall m, m < 4 -> ch + m <> root /\ ch + m <> root + q).
    { intros ch Ec m Lm. destruct (Hch ch Ec m Lm) as [I N]. split; [exact N|]. intros E0. destruct q as [|q]; [lia|]. apply (Nr (S q)); [lia|]. now rewrite <- E0. }
    assert (At : forall j, nth_error (qnodes t') j =
      if (root <=? j) && (j <? root + 4) then
        Some (QN (Some n) (if j =? root + q then kid tree else None) (if j =? root + q then own tree else []) (childc (j - root) c (muls2 r nhalf)) (muls2 r nhalf))
      else if j <? n then
        match kid tree with
        | Some ch => if (ch <=? j) && (j <? ch + 4) && negb (q =? 0) then option_map (setp (Some (root + q))) (nth_error ns j) else nth_error ns j
        | None => nth_error ns j
        end
      else nth_error (QN None (Some root) [] c r :: List.tl blankGroup) (j - n)).
    { intros j. rewrite E2. cbn [qnodes]. fold (placed n c r root ns1). rewrite placed_at.
      assert (E4 : forall k, k < n -> nth_error ns1 k = nth_error (moved ns root q rn d) k) by (intros k Lk; rewrite E1, nth_error_app1; [reflexivity|now rewrite moved_length]).
      destruct (Nat.leb_spec root j), (Nat.ltb_spec j (root + 4)); cbn [andb].
      - rewrite E4 by lia. rewrite (moved_at ns root q rn d j Er Ed Hch'). destruct (Nat.eqb_spec j (root + q)) as [->|Nj]; [reflexivity|].
        destruct (Nat.eqb_spec j root) as [->|Nj'].
        + assert (Q0 : q <> 0) by lia. destruct (Bd Q0) as [-> ->]. reflexivity.
        + destruct (Bl (j - root) ltac:(lia)) as (Ni & p3 & c3 & r3 & E5). replace (root + (j - root)) with j in * by lia.
          destruct (qchild rn) as [ch|] eqn:Ec; [|rewrite E5; reflexivity]. rewrite E5.
          destruct (_ && _); reflexivity.
      - destruct (Nat.ltb_spec j n) as [Lj|Gj].
        + rewrite E4 by lia. rewrite (moved_at ns root q rn d j Er Ed Hch'). destruct (Nat.eqb_spec j (root + q)); [lia|]. destruct (Nat.eqb_spec j root); [lia|]. reflexivity.
        + rewrite E1, nth_error_app2 by (rewrite moved_length; exact Gj). now rewrite moved_length.
      - destruct (Nat.ltb_spec j n) as [Lj|Gj]; [|lia].
        rewrite E4 by lia. rewrite (moved_at ns root q rn d j Er Ed Hch'). destruct (Nat.eqb_spec j (root + q)); [lia|]. destruct (Nat.eqb_spec j root); [lia|]. reflexivity.
      - lia. }
    assert (Ln : length (qnodes t') = n + 4).
    { rewrite E2. cbn [qnodes]. rewrite !place_length, E1, app_length, moved_length. reflexivity. }
    assert (Rt : qroot t' = n) by (rewrite E2; reflexivity).
    assert (Ia : aidx (grown n root q tree c r) = n :: flat_map (fun j => if j =? q then root + j :: List.tl (aidx tree) else [root + j]) [0; 1; 2; 3]).
    { unfold grown. cbn [aidx]. f_equal. rewrite flat_map_concat_map, map_map, flat_map_concat_map. f_equal. apply map_ext. intros j.
      destruct (j =? q); [|reflexivity]. destruct tree; reflexivity. }
    assert (Pa : Permutation (aidx (grown n root q tree c r)) (n :: [root; root + 1; root + 2; root + 3] ++ List.tl (aidx tree))).
    { rewrite Ia. constructor. rewrite <- (Nat.add_0_r root) at 1. set (l := List.tl (aidx tree)).
      assert (Q : q = 0 \/ q = 1 \/ q = 2 \/ q = 3) by lia.
      destruct Q as [->|[->|[->| ->]]]; cbn [flat_map Nat.eqb app]; rewrite ?app_nil_r.
      - apply perm_skip. rewrite Permutation_app_comm. reflexivity.
      - do 2 apply perm_skip. rewrite Permutation_app_comm. reflexivity.
      - do 3 apply perm_skip. rewrite Permutation_app_comm. reflexivity.
      - reflexivity. }
    assert (Tl : aidx tree = root :: List.tl (aidx tree)) by (rewrite <- Ir; destruct tree; reflexivity).
    assert (Tn : ~ In root (List.tl (aidx tree)) /\ NoDup (List.tl (aidx tree))) by (rewrite Tl in W2; inversion W2; auto).
    destruct Tn as [Tn1 Tn2].
    assert (Tin : forall j, In j (List.tl (aidx tree)) -> j < n /\ ~ (root <= j <= root + 3)).
    { intros j I. assert (I' : In j (aidx tree)) by (rewrite Tl; now right). split; [now apply (rep_lt _ _ _ W1)|].
      intros Lj. destruct (Nat.eq_dec j root) as [->|Nj]; [contradiction|]. apply (Nr (j - root)); [lia|]. now replace (root + (j - root)) with j by lia. }
    split; [constructor|split].
    - constructor.
      + constructor.
        * rewrite At. destruct (Nat.leb_spec root n), (Nat.ltb_spec n (root + 4)); cbn [andb]; try lia.
          rewrite Nat.ltb_irrefl, Nat.sub_diag. reflexivity.
        * reflexivity.
        * intros q1 t1 E4. apply grown_kid in E4. destruct E4 as [_ ->]. destruct (q1 =? q); [apply reroot_idx|reflexivity].
        * intros q1 t1 E4. apply grown_kid in E4. destruct E4 as [Lq1 ->].
          assert (E6 := At (root + q1)). destruct (Nat.leb_spec root (root + q1)), (Nat.ltb_spec (root + q1) (root + 4)); cbn [andb] in E6; try lia.
          replace (root + q1 - root) with q1 in E6 by lia.
          destruct (Nat.eqb_spec q1 q) as [->|Nq].
          -- rewrite Nat.eqb_refl in E6. destruct tree as [i os c1 r1|i os c1 r1 ch ks]; cbn [reroot kid own] in *; [constructor; exact E6|].
             destruct (rep_kids _ _ _ _ _ _ _ _ W1) as (Lk & Ix & Rk). constructor; auto.
             intros m tm Em. assert (Lm : m < 4) by (rewrite <- Lk; apply nth_error_Some; rewrite Em; discriminate).
             pose proof (nodup_kid aidx ks m tm Tn2 Em) as Nm. cbn [aidx List.tl] in *.
             assert (Out : forall j, In j (aidx tm) -> nth_error (qnodes t') j =
               if (ch <=? j) && (j <? ch + 4) && negb (q =? 0) then option_map (setp (Some (root + q))) (nth_error ns j) else nth_error ns j).
             { intros j Ij. pose proof (Tin j (kid_in aidx ks m tm j Em Ij)) as [Lj Oj]. etransitivity; [apply At|].
               destruct (Nat.leb_spec root j), (Nat.ltb_spec j (root + 4)); cbn [andb]; try lia; apply Nat.ltb_lt in Lj; rewrite Lj; reflexivity. }
             assert (Sep : forall j, In j (aidx tm) -> j <> qidx tm -> ~ (ch <= j < ch + 4)).
             { intros j Ij Nj Lj. destruct (nth_error ks (j - ch)) as [tj|] eqn:Ej; [|apply nth_error_None in Ej; lia].
               assert (Eij : qidx tj = j) by (rewrite (Ix _ _ Ej); lia).
               assert (Ij' : In j (aidx tj)) by (rewrite <- Eij; apply qidx_in).
               pose proof (nodup_kids aidx ks Tn2 _ _ _ _ j Em Ej Ij Ij') as Emj. rewrite <- Emj in Ej. rewrite Em in Ej. injection Ej as <-. congruence. }
             assert (Ri : i = root) by exact Ir.
             destruct (Nat.eqb_spec q 0) as [->|Nq0]; cbn [negb] in Out.
             ++ rewrite Nat.add_0_r. apply (frame ns); [rewrite <- Ri; now apply (Rk m)|]. intros j Ij. rewrite (Out j Ij). now rewrite andb_false_r.
             ++ apply (reparent ns _ (Some root)); [rewrite <- Ri; now apply (Rk m)|exact Nm| |].
                ** intros j Ij Nj. rewrite (Out j Ij). specialize (Sep j Ij Nj). destruct (Nat.leb_spec ch j), (Nat.ltb_spec j (ch + 4)); cbn [andb]; try reflexivity. lia.
                ** rewrite (Out _ (qidx_in tm)), (Ix _ _ Em). destruct (Nat.leb_spec ch (ch + m)), (Nat.ltb_spec (ch + m) (ch + 4)); cbn [andb]; try lia. reflexivity.
          -- destruct (Nat.eqb_spec (root + q1) (root + q)); [lia|]. constructor. exact E6.
      + eapply Permutation_NoDup; [symmetry; exact Pa|]. constructor.
        * intros I. apply in_app_or in I. destruct I as [I|I]; [cbn in I; lia|]. apply Tin in I. lia.
        * apply nodup_app; [repeat constructor; cbn; lia|exact Tn2|]. intros j I1 I2. apply Tin in I2. cbn in I1. lia.
      + replace (aobjs (grown n root q tree c r)) with (aobjs tree); [exact W3|]. unfold grown. cbn [aobjs map].
        assert (Q : q = 0 \/ q = 1 \/ q = 2 \/ q = 3) by lia.
        destruct Q as [->|[->|[->| ->]]]; cbn [flat_map Nat.eqb app aobjs]; rewrite ?app_nil_r; destruct tree; reflexivity.
    - now rewrite Rt.
    - intros j Lj. rewrite Rt. split.
      + intros I. apply (Permutation_in _ Pa) in I. cbn [In app] in I. destruct I as [I|[I|[I|[I|[I|I]]]]]; try lia. apply Tin in I. lia.
      + exists None, (V2 n0 n0), (V2 n0 n0). rewrite At. destruct (Nat.leb_spec root (n + j)), (Nat.ltb_spec (n + j) (root + 4)); cbn [andb]; try lia.
        destruct (Nat.ltb_spec (n + j) n); [lia|]. replace (n + j - n) with j by lia. destruct j as [|[|[|[|j]]]]; try lia; reflexivity.
    - rewrite Ln, Rt. intros j Lj. destruct (Nat.lt_ge_cases j n) as [L|G].
      + left. apply (Permutation_in _ (Permutation_sym Pa)). right. destruct (Cv j L) as [I|I].
        * rewrite Tl in I. destruct I as [<-|I]; [now left|]. apply in_or_app. now right.
        * apply in_or_app. left. cbn. lia.
      + destruct (Nat.eq_dec j n) as [->|Nj]; [left; now left|right; lia].
    - intros j p Hp. rewrite E3. unfold grown in Hp. apply holds_kid_inv in Hp. destruct Hp as [[_ []]|(q1 & t1 & E4 & Hp)].
      apply grown_kid in E4. destruct E4 as [Lq1 ->]. destruct (Nat.eqb_spec q1 q) as [->|Nq]; [|inversion Hp; subst; contradiction].
      assert (Cs : (j = root + q /\ In p (own tree)) \/ (holds tree j p /\ ~ In p (own tree))).
      { destruct tree as [i os c1 r1|i os c1 r1 ch ks]; cbn [reroot] in Hp.
        - inversion Hp; subst. cbn in *. auto.
        - apply holds_kid_inv in Hp. destruct Hp as [[-> I]|(m & tm & Em & Hp)]; [left; auto|]. right. split; [econstructor; eassumption|].
          cbn. intros I. cbn in W3. destruct (NoDup_app_kd _ _ W3) as (_ & _ & M3). apply (M3 p I). apply holds_objs in Hp. exact (kid_in aobjs ks m tm p Em (proj1 Hp)). }
      destruct (Nat.eqb_spec q 0) as [->|Nq0].
      + apply Hm. destruct Cs as [[-> I]|[H _]]; [|exact H]. rewrite Nat.add_0_r, <- Ir. now constructor.
      + rewrite fold_assoc. cbn [rn qobjs]. destruct Cs as [[-> I]|[H Ni]].
        * apply existsb_in in I. now rewrite I.
        * destruct (existsb _ _) eqn:Ex; [apply existsb_in in Ex; contradiction|]. now apply Hm.
    - rewrite E2. reflexivity.
    - intros p Np. rewrite E3. destruct (q =? 0); [reflexivity|]. rewrite fold_assoc. cbn [rn qobjs].
      destruct (existsb _ _) eqn:Ex; [apply existsb_in in Ex; contradiction|reflexivity].
  Qed.

  (** *** Removal *)
  Definition objs_at ns (i : nat) : list nat := match nth_error ns i with Some nd => qobjs nd | None => [] end.
  Lemma flat_map_in {A B} (f g : A -> list B) l : (forall x, In x l -> f x = g x) -> flat_map f l = flat_map g l.
  Proof. induction l as [|x l IH]; intros H; cbn; [reflexivity|]. rewrite (H x), IH; auto; [intros; apply H; now right|now left]. Qed.
  Lemma flat_map_perm {A B} (f g : A -> list B) l : (forall x, In x l -> Permutation (f x) (g x)) -> Permutation (flat_map f l) (flat_map g l).
  Proof. induction l as [|x l IH]; intros H; cbn; [reflexivity|]. apply Permutation_app; [apply H; now left|apply IH; intros; apply H; now right]. Qed.
  Lemma flat_map_nest {A B C} (f : A -> list B) (g : B -> list C) l : flat_map g (flat_map f l) = flat_map (fun x => flat_map g (f x)) l.
  Proof. induction l as [|x l IH]; cbn; [reflexivity|]. now rewrite flat_map_app, IH. Qed.
  Lemma objs_flat ns par tree : qrep ns par tree -> aobjs tree = flat_map (objs_at ns) (aidx tree).
  Proof.
    induction 1 as [par i os c r E|par i os c r ch ks E L Ix Rk IH]; cbn; unfold objs_at at 1; rewrite E; cbn; [now rewrite app_nil_r|].
    f_equal. rewrite flat_map_nest. apply flat_map_in. intros t I. apply In_nth_error in I. destruct I as [q Eq]. now apply (IH q).
  Qed.
  Lemma holds_iff ns par tree : qrep ns par tree -> forall j p, holds tree j p <-> In j (aidx tree) /\ In p (objs_at ns j).
  Proof.
    induction 1 as [par i os c r E|par i os c r ch ks E L Ix Rk IH]; intros j p.
    - split.
      + inversion 1; subst. unfold objs_at. cbn [qidx aidx]. rewrite E. split; [now left|assumption].
      + intros [[<-|[]] I]. unfold objs_at in I. rewrite E in I. now apply (holds_own (QL i os c r)).
    - split.
      + intros H. apply holds_kid_inv in H. destruct H as [[-> I]|(q & t & Eq & H)].
        * unfold objs_at. rewrite E. split; [now left|assumption].
        * apply (IH q t Eq) in H. destruct H as [H1 H2]. split; [right; exact (kid_in aidx ks q t j Eq H1)|exact H2].
      + intros [[<-|I] Ip].
        * unfold objs_at in Ip. rewrite E in Ip. now apply (holds_own (QI i os c r ch ks)).
        * apply in_flat_map in I. destruct I as (t & It & I). apply In_nth_error in It. destruct It as [q Eq].
          apply (holds_kid i os c r ch ks q t); [exact Eq|]. apply (IH q t Eq). auto.
  Qed.
  Lemma objs_holds ns par tree p : qrep ns par tree -> In p (aobjs tree) -> exists j, holds tree j p.
  Proof.
    intros W I. rewrite (objs_flat _ _ _ W) in I. apply in_flat_map in I. destruct I as (j & Ij & Ip). exists j. now apply (holds_iff _ _ _ W).
  Qed.
  Lemma flat_nodup_unique (f : nat -> list nat) l : NoDup (flat_map f l) -> forall i j p, In i l -> In j l -> In p (f i) -> In p (f j) -> i = j.
  Proof.
    induction l as [|x l IH]; cbn; intros N i j p Ii Ij Pi Pj; [contradiction|]. destruct (NoDup_app_kd _ _ N) as (_ & N2 & D).
    destruct Ii as [->|Ii], Ij as [->|Ij]; auto.
    - exfalso. apply (D p Pi). apply in_flat_map. eauto.
    - exfalso. apply (D p Pj). apply in_flat_map. eauto.
    - eapply IH; eassumption.
  Qed.
  Lemma holds_unique ns par tree : wf ns par tree -> forall i j p, holds tree i p -> holds tree j p -> i = j.
  Proof.
    intros [W1 W2 W3] i j p H1 H2. rewrite (objs_flat _ _ _ W1) in W3. apply (holds_iff _ _ _ W1) in H1, H2.
    eapply (flat_nodup_unique _ _ W3); [apply H1|apply H2|apply H1|apply H2].
  Qed.
  Fixpoint setown (t : qtr (T := T)) (j : nat) (os' : list nat) : qtr :=
    match t with
    | QL i os c r => QL i (if i =? j then os' else os) c r
    | QI i os c r ch ks => QI i (if i =? j then os' else os) c r ch (map (fun k => setown k j os') ks)
    end.
  Lemma setown_top t j os' : qidx (setown t j os') = qidx t /\ cen (setown t j os') = cen t /\ rad (setown t j os') = rad t.
  Proof. destruct t; cbn; auto. Qed.
  Lemma setown_rep ns par tree : qrep ns par tree -> forall j nd os', nth_error ns j = Some nd ->
    qrep (update ns j (QN (qparent nd) (qchild nd) os' (qcenter nd) (qradius nd))) par (setown tree j os') /\ aidx (setown tree j os') = aidx tree.
  Proof.
    induction 1 as [par i os c r E|par i os c r ch ks E L Ix Rk IH]; intros j nd os' En; cbn [setown aidx].
    - split; [|reflexivity]. constructor. rewrite (nth_update_some _ _ _ _ _ En), Nat.eqb_sym. destruct (Nat.eqb_spec i j) as [->|N]; [|exact E].
      rewrite E in En. injection En as <-. reflexivity.
    - split.
      + constructor.
        * rewrite (nth_update_some _ _ _ _ _ En), Nat.eqb_sym. destruct (Nat.eqb_spec i j) as [->|N]; [|exact E].
          rewrite E in En. injection En as <-. reflexivity.
        * now rewrite map_length.
        * intros q t Eq. rewrite nth_error_map in Eq. destruct (nth_error ks q) as [k|] eqn:Ek; [|discriminate]. cbn in Eq. injection Eq as <-.
          rewrite (proj1 (setown_top k j os')). now apply Ix.
        * intros q t Eq. rewrite nth_error_map in Eq. destruct (nth_error ks q) as [k|] eqn:Ek; [|discriminate]. cbn in Eq. injection Eq as <-.
          apply (IH q k Ek j nd os' En).
      + f_equal. rewrite flat_map_concat_map, map_map, <- flat_map_concat_map. apply flat_map_in. intros k I. apply In_nth_error in I. destruct I as [q Eq].
        now apply (IH q k Eq j nd os').
  Qed.
  Lemma flat_map_remove (f g : nat -> list nat) l j o : NoDup l -> In j l -> (forall i, i <> j -> g i = f i) -> Permutation (f j) (o :: g j) ->
    Permutation (flat_map f l) (o :: flat_map g l).
  Proof.
    intros N I G P. induction l as [|x l IH]; [contradiction|]. cbn. inversion N; subst. destruct (Nat.eq_dec x j) as [->|Nx].
    - rewrite P. cbn. constructor. apply Permutation_app_head. rewrite (flat_map_in f g l); [reflexivity|]. intros i Ii. symmetry. apply G. intros ->. contradiction.
    - destruct I as [I|I]; [contradiction|]. rewrite (IH H2 I), (G x Nx). symmetry. apply Permutation_middle.
  Qed.
  Lemma index_of_in o l : In o l -> exists i, index_of o l = Some i /\ nth_error l i = Some o.
  Proof.
    induction l as [|x l IH]; intros I; [contradiction|]. cbn. destruct (Nat.eqb_spec x o) as [->|N]; [exists 0; auto|].
    destruct I as [I|I]; [contradiction|]. destruct (IH I) as (i & E & E'). exists (S i). now rewrite E.
  Qed.
  Lemma remove_ok t a tree o : ok_tree t a tree -> In o (aobjs tree) -> exists t' tree',
    QuadTree_Remove t a o = QDone (t', set_assoc a o None) /\ ok_tree t' (set_assoc a o None) tree' /\ Permutation (aobjs tree) (o :: aobjs tree') /\
    qroot t' = qroot t /\ qbound t' = qbound t /\ cen tree' = cen tree /\ rad tree' = rad tree /\ (forall side link, inv side link tree -> inv side link tree').
  Proof.
    intros [W Ir Bl Cv Hm] Io. assert (W' := W). destruct W' as [W1 W2 W3]. destruct (objs_holds _ _ _ _ W1 Io) as [j Hj].
    pose proof (proj1 (holds_iff _ _ _ W1 j o) Hj) as [Ij Ioj]. unfold objs_at in Ioj. unfold QuadTree_Remove. rewrite (Hm j o Hj).
    destruct (nth_error (qnodes t) j) as [nd|] eqn:En; [|contradiction]. destruct (index_of_in _ _ Ioj) as (i & Ei & Ei'). rewrite Ei.
    set (os' := swap_remove (qobjs nd) i). pose proof (swap_remove_perm _ _ _ Ei') as Sp. fold os' in Sp.
    set (ns' := update (qnodes t) j (QN (qparent nd) (qchild nd) os' (qcenter nd) (qradius nd))).
    destruct (setown_rep _ _ _ W1 j nd os' En) as [R1 R2]. fold ns' in R1.
    assert (Ga : forall k, k <> j -> objs_at ns' k = objs_at (qnodes t) k) by (intros k Nk; unfold objs_at, ns'; rewrite update_neq by congruence; reflexivity).
    assert (Gj : objs_at ns' j = os') by (unfold objs_at, ns'; rewrite update_eq by (now apply nth_some_lt in En); reflexivity).
    assert (Sub : forall k, incl (objs_at ns' k) (objs_at (qnodes t) k)).
    { intros k p Ip. destruct (Nat.eq_dec k j) as [->|Nk]; [|now rewrite (Ga k Nk) in Ip]. rewrite Gj in Ip. unfold objs_at. rewrite En.
      apply (Permutation_in _ (Permutation_sym Sp)). now right. }
    assert (P : Permutation (aobjs tree) (o :: aobjs (setown tree j os'))).
    { rewrite (objs_flat _ _ _ W1), (objs_flat _ _ _ R1), R2. apply (flat_map_remove _ _ _ j); auto. rewrite Gj. unfold objs_at. now rewrite En. }
    eexists; exists (setown tree j os'). split; [reflexivity|]. destruct (setown_top tree j os') as (T1 & T2 & T3).
    split; [|split; [exact P|split; [reflexivity|split; [reflexivity|split; [exact T2|split; [exact T3|]]]]]].
    - pose proof (Permutation_NoDup P W3) as N3. inversion N3 as [|? ? Nd1 Nd2]; subst. constructor; cbn [qnodes qroot]; fold ns'.
      + constructor; [exact R1|now rewrite R2|exact Nd2].
      + now rewrite T1.
      + intros k Lk. destruct (Bl k Lk) as (N1 & par0 & c0 & r0 & E0). rewrite R2. split; [exact N1|]. exists par0, c0, r0.
        unfold ns'. rewrite update_neq; [exact E0|]. intros ->. contradiction.
      + intros k Lk. unfold ns' in Lk. rewrite update_length in Lk. rewrite R2. now apply Cv.
      + intros k p Hp. assert (Ip : In p (aobjs (setown tree j os'))) by (now apply holds_objs in Hp).
        unfold set_assoc. destruct (Nat.eqb_spec p o) as [->|Np]; [contradiction|]. apply Hm.
        apply (holds_iff _ _ _ R1) in Hp. rewrite R2 in Hp. apply (holds_iff _ _ _ W1). split; [apply Hp|]. now apply Sub.
    - intros side link V. clear - V W1 R1 Sub En. 
      assert (G : forall par tr, qrep (qnodes t) par tr -> qrep ns' par (setown tr j os') -> aidx (setown tr j os') = aidx tr -> inv side link tr -> inv side link (setown tr j os')).
      { induction 1 as [par i0 os c r E|par i0 os c r ch ks E L Ix Rk IH]; intros R1' R2' V'; cbn [setown]; [constructor|].
        inversion V' as [|? ? ? ? ? ? V1 V2 V3]; subst. constructor.
        - intros q k p Eq Ip. rewrite nth_error_map in Eq. destruct (nth_error ks q) as [k0|] eqn:Ek; [|discriminate]. cbn in Eq. injection Eq as <-.
          apply (V1 q k0 p Ek). destruct (setown_rep _ _ _ (Rk q k0 Ek) j nd os' En) as [Rr Rx]. fold ns' in Rr.
          rewrite (objs_flat _ _ _ Rr), Rx in Ip. rewrite (objs_flat _ _ _ (Rk q k0 Ek)). apply in_flat_map in Ip. destruct Ip as (x & Ix' & Ip).
          apply in_flat_map. exists x. split; [exact Ix'|now apply Sub].
        - intros q k Eq. rewrite nth_error_map in Eq. destruct (nth_error ks q) as [k0|] eqn:Ek; [|discriminate]. cbn in Eq. injection Eq as <-.
          destruct (setown_top k0 j os') as (_ & -> & ->). now apply V2.
        - intros q k Eq. rewrite nth_error_map in Eq. destruct (nth_error ks q) as [k0|] eqn:Ek; [|discriminate]. cbn in Eq. injection Eq as <-.
          destruct (setown_rep _ _ _ (Rk q k0 Ek) j nd os' En) as [Rr Rx]. apply (IH q k0 Ek); auto. now apply (V3 q). }
      apply (G None tree W1 R1); [|exact V]. now apply (setown_rep _ _ _ W1 j nd os' En).
  Qed.
End QtG.
