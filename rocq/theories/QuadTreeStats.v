(** Lemmas for the quadtree properties, continued: queries, pairs, counters and height of a tree that satisfies the invariant. *)
From Coq Require Import ZArith Bool List Permutation Lia.
From Verif Require Import Num ScalarModel Vec2Model KdTreeModel KdTreeSpec KdTreeProofs QuadTreeModel QuadTreeSpec QuadTreeProofs QuadTreeGrow QuadTreeHist QuadTreeQuery QuadTreeGeo.
Import ListNotations.
Ltac Zify.zify_post_hook ::= idtac.
Local Open Scope nat_scope.

(** Node j is d levels below node i. *)
Inductive qdeep {T} (ns : list (qnode T)) : nat -> nat -> nat -> Prop :=
| qdeep_here i nd : nth_error ns i = Some nd -> qdeep ns i 0 i
| qdeep_child i nd c k j d : nth_error ns i = Some nd -> qchild nd = Some c -> k < 4 -> qdeep ns (c + k) d j -> qdeep ns i (S d) j.

Section Stats.
  Context {T : Type} `{NT : Num T}.
  Implicit Types (ns : list (qnode T)) (c r : v2 T) (ks : list (qtr (T := T))) (tree tq : qtr (T := T)).

  Lemma tree_idx (t : qt (T := T)) a tree : ok_tree t a tree ->
    Permutation (seq 0 (length (qnodes t))) ([qroot t + 1; qroot t + 2; qroot t + 3] ++ aidx tree).
  Proof.
    intros [[W1 W2 W3] Ir Bl Cv Hm]. apply NoDup_Permutation; [apply seq_NoDup| |].
    - apply nodup_app; [repeat constructor; cbn; lia|exact W2|]. intros x I1 I2. cbn in I1.
      destruct (Bl (x - qroot t) ltac:(lia)) as [N _]. apply N. now replace (qroot t + (x - qroot t)) with x by lia.
    - intros x. rewrite in_seq, in_app_iff. split.
      + intros L. destruct (Cv x ltac:(lia)) as [I|I]; [now right|left; cbn; lia].
      + intros [I|I]; [|apply (rep_lt _ _ _ W1) in I; lia]. cbn in I.
        destruct (Bl (x - qroot t) ltac:(lia)) as (_ & p0 & c0 & r0 & E0). replace (qroot t + (x - qroot t)) with x in E0 by lia. apply nth_some_lt in E0. lia.
  Qed.
  Lemma tree_size (t : qt (T := T)) a tree : ok_tree t a tree -> length (qnodes t) = 3 + length (aidx tree).
  Proof. intros O. pose proof (Permutation_length (tree_idx _ _ _ O)) as E. now rewrite seq_length, app_length in E. Qed.
  Definition nodep ns (p : qnode T -> bool) (i : nat) : bool := match nth_error ns i with Some nd => p nd | None => false end.
  Lemma filter_andb {A} (f g : A -> bool) l : filter (fun x => f x && g x) l = filter g (filter f l).
  Proof. induction l as [|x l IH]; [reflexivity|]. cbn. destruct (f x); cbn; [|exact IH]. destruct (g x); now rewrite IH. Qed.
  Lemma filter_len_perm {A} (f : A -> bool) l l' : Permutation l l' -> length (filter f l) = length (filter f l').
  Proof. induction 1; cbn; auto; repeat match goal with |- context [if ?x then _ else _] => destruct x end; cbn; congruence. Qed.
  Lemma counted_tree (t : qt (T := T)) a tree p : ok_tree t a tree -> counted t p = length (filter (nodep (qnodes t) p) (aidx tree)).
  Proof.
    intros O. unfold counted. rewrite (filter_andb (fun i => (i <=? qroot t) || (qroot t + 4 <=? i))). apply filter_len_perm.
    assert (Nd : NoDup (aidx tree)) by apply O. apply NoDup_Permutation; [apply NoDup_filter, seq_NoDup|exact Nd|].
    intros x. rewrite filter_In. pose proof (tree_idx _ _ _ O) as P. assert (O' := O). destruct O' as [[W1 W2 W3] Ir Bl Cv Hm]. split.
    - intros [I C0]. apply (Permutation_in _ P) in I. apply in_app_or in I. destruct I as [I|I]; [|exact I]. exfalso. cbn in I.
      apply orb_prop in C0. destruct C0 as [C0|C0]; apply Nat.leb_le in C0; lia.
    - intros I. split; [apply (Permutation_in _ (Permutation_sym P)); apply in_or_app; now right|].
      destruct (Nat.leb_spec x (qroot t)); [reflexivity|]. destruct (Nat.leb_spec (qroot t + 4) x); [reflexivity|]. exfalso.
      destruct (Bl (x - qroot t) ltac:(lia)) as [N _]. apply N. now replace (qroot t + (x - qroot t)) with x by lia.
  Qed.
  Lemma filter_negb {A} (f : A -> bool) l : length (filter f l) + length (filter (fun x => negb (f x)) l) = length l.
  Proof. induction l as [|x l IH]; [reflexivity|]. cbn. destruct (f x); cbn; lia. Qed.
  Lemma filter_ext' {A} (f g : A -> bool) l : (forall x, In x l -> f x = g x) -> filter f l = filter g l.
  Proof. induction l as [|x l IH]; intros E; [reflexivity|]. cbn. rewrite (E x (or_introl eq_refl)), IH; [reflexivity|]. intros y I. apply E. now right. Qed.
  Lemma leaves_inner (t : qt (T := T)) a tree : ok_tree t a tree -> QuadTree_NumLeaves t + QuadTree_NumInnerNodes t = length (aidx tree).
  Proof.
    intros O. unfold QuadTree_NumLeaves, QuadTree_NumInnerNodes. rewrite !(counted_tree _ _ _ _ O).
    rewrite <- (filter_negb (nodep (qnodes t) qIsLeaf) (aidx tree)). f_equal. f_equal. apply filter_ext'. intros x I. unfold nodep.
    assert (L : x < length (qnodes t)) by (apply (rep_lt _ _ _ (wf_rep _ _ _ (ot_wf _ _ _ O)) x I)).
    destruct (nth_error (qnodes t) x) eqn:E; [reflexivity|]. apply nth_error_None in E. lia.
  Qed.
  Lemma inner_four ns par tree : qrep ns par tree -> length (aidx tree) = 4 * length (filter (nodep ns (fun nd => negb (qIsLeaf nd))) (aidx tree)) + 1.
  Proof.
    induction 1 as [par i os c r E|par i os c r ch ks E L Ix Rk IH].
    - cbn [aidx filter]. unfold nodep. rewrite E. reflexivity.
    - cbn [aidx filter]. unfold nodep at 1. rewrite E. cbn [qIsLeaf qchild negb].
      destruct ks as [|k0 [|k1 [|k2 [|k3 [|? ?]]]]]; cbn in L; try lia. cbn [flat_map]. rewrite !filter_app. cbn [length]. rewrite !app_length. cbn [filter length].
      rewrite (IH 0 k0 eq_refl) at 1. rewrite (IH 1 k1 eq_refl) at 1. rewrite (IH 2 k2 eq_refl) at 1. rewrite (IH 3 k3 eq_refl) at 1. lia.
  Qed.
  Lemma list_sum_flat {A B} (f : A -> list B) l : list_sum (map (fun x => length (f x)) l) = length (flat_map f l).
  Proof. induction l as [|x l IH]; [reflexivity|]. cbn. rewrite app_length. unfold list_sum in IH. now rewrite IH. Qed.

  (** *** Height *)
  Fixpoint aheight (t : qtr (T := T)) : nat :=
    match t with
    | QL _ _ _ _ => 1
    | QI _ _ _ _ _ ks => let h := map aheight ks in 1 + Nat.max (Nat.max (nth 0 h 0) (nth 1 h 0)) (Nat.max (nth 2 h 0) (nth 3 h 0))
    end.
  Lemma height_size ns par tree : qrep ns par tree -> aheight tree <= length (aidx tree).
  Proof.
    induction 1 as [par i os c r E|par i os c r ch ks E L Ix Rk IH]; [cbn; lia|].
    destruct ks as [|k0 [|k1 [|k2 [|k3 [|? ?]]]]]; cbn in L; try lia. cbn [aheight map nth aidx flat_map length]. rewrite !app_length.
    pose proof (IH 0 k0 eq_refl). pose proof (IH 1 k1 eq_refl). pose proof (IH 2 k2 eq_refl). pose proof (IH 3 k3 eq_refl). lia.
  Qed.
  Lemma height_at ns par tree : qrep ns par tree -> forall fuel, aheight tree <= fuel -> qHeightAt fuel ns (qidx tree) = QDone (aheight tree).
  Proof.
    induction 1 as [par i os c r E|par i os c r ch ks E L Ix Rk IH]; intros fuel Lf.
    - destruct fuel; [cbn in Lf; lia|]. cbn [qHeightAt qidx]. rewrite E. reflexivity.
    - destruct fuel as [|f]; [cbn in Lf; lia|]. cbn [qHeightAt qidx]. rewrite E. cbn [qchild].
      destruct ks as [|k0 [|k1 [|k2 [|k3 [|? ?]]]]]; cbn in L; try lia. cbn [aheight map nth] in *.
      pose proof (Ix 0 k0 eq_refl) as E0. pose proof (Ix 1 k1 eq_refl) as E1. pose proof (Ix 2 k2 eq_refl) as E2. pose proof (Ix 3 k3 eq_refl) as E3.
      rewrite Nat.add_0_r in E0. rewrite <- E0 at 1. rewrite <- E1, <- E2, <- E3.
      rewrite (IH 0 k0 eq_refl) by lia. rewrite (IH 1 k1 eq_refl) by lia. rewrite (IH 2 k2 eq_refl) by lia. rewrite (IH 3 k3 eq_refl) by lia. reflexivity.
  Qed.
  Lemma nth_height ks k t : nth_error ks k = Some t -> nth k (map aheight ks) 0 = aheight t.
  Proof. intros E. apply nth_error_nth. now apply map_nth_error. Qed.
  Lemma height_deep ns par tree : qrep ns par tree -> exists j, qdeep ns (qidx tree) (aheight tree - 1) j.
  Proof.
    induction 1 as [par i os c r E|par i os c r ch ks E L Ix Rk IH]; [exists i; econstructor; exact E|].
    assert (X : exists k t, nth_error ks k = Some t /\ aheight (QI i os c r ch ks) = S (aheight t) /\ k < 4 /\ 1 <= aheight t).
    { destruct ks as [|k0 [|k1 [|k2 [|k3 [|? ?]]]]]; cbn in L; try lia. cbn [aheight map nth].
      assert (P : forall t : qtr (T := T), 1 <= aheight t) by (intros []; cbn; lia).
      pose proof (P k0). pose proof (P k1). pose proof (P k2). pose proof (P k3).
      destruct (Nat.max_spec (Nat.max (aheight k0) (aheight k1)) (Nat.max (aheight k2) (aheight k3))) as [[_ ->]|[_ ->]].
      - destruct (Nat.max_spec (aheight k2) (aheight k3)) as [[_ ->]|[_ ->]]; [exists 3, k3|exists 2, k2]; repeat split; auto; lia.
      - destruct (Nat.max_spec (aheight k0) (aheight k1)) as [[_ ->]|[_ ->]]; [exists 1, k1|exists 0, k0]; repeat split; auto; lia. }
    destruct X as (k & t & Ek & -> & Lk & P). destruct (IH k t Ek) as [j D]. exists j. cbn [qidx].
    replace (S (aheight t) - 1) with (S (aheight t - 1)) by lia. eapply qdeep_child; [exact E|reflexivity|exact Lk|]. now rewrite <- (Ix k t Ek).
  Qed.
  Lemma deep_height ns par tree : qrep ns par tree -> forall d j, qdeep ns (qidx tree) d j -> d < aheight tree.
  Proof.
    induction 1 as [par i os c r E|par i os c r ch ks E L Ix Rk IH]; intros d j D; inversion D as [|? nd c0 k ? d0 En Ec Lk D0]; subst; cbn [qidx] in *; try (cbn; lia).
    - rewrite E in En. injection En as <-. discriminate.
    - rewrite E in En. injection En as <-. cbn in Ec. injection Ec as <-.
      destruct (nth_error ks k) as [t|] eqn:Ek; [|apply nth_error_None in Ek; lia]. rewrite <- (Ix k t Ek) in D0. specialize (IH k t Ek _ _ D0).
      cbn [aheight]. pose proof (nth_height _ _ _ Ek) as Hn.
      assert (aheight t <= Nat.max (Nat.max (nth 0 (map aheight ks) 0) (nth 1 (map aheight ks) 0)) (Nat.max (nth 2 (map aheight ks) 0) (nth 3 (map aheight ks) 0))).
      { destruct k as [|[|[|[|k]]]]; try lia; rewrite <- Hn; lia. }
      lia.
  Qed.
  (** *** Links between a node and its children *)
  Lemma kids_linked (side : nat -> v2 T -> nat -> Prop) (link : nat -> v2 T -> v2 T -> v2 T -> v2 T -> Prop) ns par tree : qrep ns par tree -> inv side link tree ->
    forall n nd ch k, In n (aidx tree) -> nth_error ns n = Some nd -> qchild nd = Some ch -> k < 4 ->
    exists kd tk, nth_error ns (ch + k) = Some kd /\ qparent kd = Some n /\ link k (qcenter nd) (qradius nd) (qcenter kd) (qradius kd) /\
      qrep ns (Some n) tk /\ qidx tk = ch + k /\ (forall o, In o (aobjs tk) -> side k (qcenter nd) o).
  Proof.
    induction 1 as [par i os c r E|par i os c r ch ks E L Ix Rk IH]; intros V n nd c0 k In_ En Ec Lk.
    - destruct In_ as [<-|[]]. rewrite E in En. injection En as <-. discriminate.
    - inversion V as [|? ? ? ? ? ? V1 V2 V3]; subst. destruct In_ as [<-|In_].
      + rewrite E in En. injection En as <-. cbn in Ec. injection Ec as <-.
        destruct (nth_error ks k) as [t|] eqn:Ek; [|apply nth_error_None in Ek; lia].
        pose proof (rep_root _ _ _ (Rk k t Ek)) as Er. rewrite (Ix k t Ek) in Er. eexists. exists t. split; [exact Er|]. cbn [qparent qcenter qradius].
        split; [reflexivity|]. split; [now apply V2|]. split; [now apply (Rk k)|]. split; [now apply Ix|]. intros o Io. now apply (V1 k t).
      + apply in_flat_map in In_. destruct In_ as (t & It & In_). apply In_nth_error in It. destruct It as [q Eq]. apply (IH q t Eq (V3 q t Eq) n nd c0 k In_ En Ec Lk).
  Qed.
  Lemma reach_in ns par tree : qrep ns par tree -> forall j, qreach ns (qidx tree) j -> In j (aidx tree).
  Proof.
    induction 1 as [par i os c r E|par i os c r ch ks E L Ix Rk IH]; intros j D; inversion D as [|? nd c0 k ? En Ec Lk D0]; subst; cbn [qidx] in *; try (now left).
    - rewrite E in En. injection En as <-. discriminate.
    - rewrite E in En. injection En as <-. cbn in Ec. injection Ec as <-.
      destruct (nth_error ks k) as [t|] eqn:Ek; [|apply nth_error_None in Ek; lia]. rewrite <- (Ix k t Ek) in D0. right. exact (kid_in aidx ks k t j Ek (IH k t Ek _ D0)).
  Qed.
End Stats.

(** *** Queries and pairs of a tree satisfying the geometric invariant *)
Section QueryTree.
  Context {T : Type} `{SL : SubLaws T}.
  Variable rect : nat -> aabb2 T.
  Implicit Types (t : qt (T := T)) (tree : qtr (T := T)) (q : aabb2 T).
  Variable binv : aabb2 T -> v2 T -> v2 T -> Prop.
  Hypothesis Bi : forall b c r, binv b c r -> okv c /\ finv r.
  Notation InvG := (Inv (sideOf rect) linkOf binv (inbOf rect)).

  Definition fullv (t : qt (T := T)) tree (q : aabb2 T) : list nat := if AABB2D_Intersects q (qbound t) then vis q tree else [].
  Lemma query_full t a tree q stop fuel : ok_tree t a tree -> length (qnodes t) <= fuel ->
    QuadTree_AABBQuery fuel t q stop = QDone (until stop (fullv t tree q) []).
  Proof.
    intros O Lf. unfold QuadTree_AABBQuery, fullv.
    assert (Ln : exists n0 ns0, qnodes t = n0 :: ns0).
    { destruct O as [[W1 _ _] Ir _ _ _]; apply rep_root in W1. destruct (qnodes t); [destruct (qidx tree); discriminate|eauto]. }
    destruct Ln as (n0' & ns0 & Eqn). rewrite Eqn at 1. destruct (AABB2D_Intersects q (qbound t)); [|reflexivity].
    rewrite <- (ot_root _ _ _ O). change [qidx tree] with (map qidx [tree]). rewrite loop_vis.
    - cbn [flat_map]. now rewrite app_nil_r.
    - intros t0 [<-|[]]. exists None. apply O.
    - unfold list_sum. cbn. pose proof (tree_size _ _ _ O). lia.
  Qed.
  Lemma full_nodup t a tree q : ok_tree t a tree -> NoDup (fullv t tree q).
  Proof. intros O. unfold fullv. destruct (AABB2D_Intersects _ _); [|constructor]. apply (vis_nodup rect q (qnodes t) None); apply O. Qed.
  Lemma full_in t a tree q j : ok_tree t a tree -> In j (fullv t tree q) -> In j (aidx tree) /\ objs_at (qnodes t) j <> [].
  Proof. intros O. unfold fullv. destruct (AABB2D_Intersects _ _); [|intros []]. apply (vis_in rect q (qnodes t) None). apply O. Qed.
  Lemma intersects_bound (q : aabb2 T) b o : inbOf rect b o -> AABB2D_Intersects q (rect o) = true -> AABB2D_Intersects q b = true.
  Proof.
    unfold inbOf, AABB2D_ContainsBox, AABB2D_Intersects. intros I J.
    apply andb_prop in I. destruct I as [I I4]. apply andb_prop in I. destruct I as [I I3]. apply andb_prop in I. destruct I as [I1 I2].
    apply andb_prop in J. destruct J as [J J4]. apply andb_prop in J. destruct J as [J J3]. apply andb_prop in J. destruct J as [J1 J2].
    repeat (apply andb_true_intro; split); eapply leb_trans; eassumption.
  Qed.
  Lemma full_complete t a tree q j o : ok_tree t a tree -> InvG (qbound t) tree -> holds tree j o -> finb (rect o) ->
    AABB2D_Intersects q (rect o) = true -> In j (fullv t tree q).
  Proof.
    intros O (V1 & V2 & V3) Ho F I. unfold fullv. rewrite (intersects_bound q _ o); [| |exact I].
    - destruct (Bi _ _ _ V2) as [C0 R0]. eapply (vis_complete rect q _ None); eauto. apply O.
    - apply V3. apply (holds_objs _ _ _ Ho).
  Qed.

  (** The pairs reported for one node. *)
  Definition pairsOf (ns : list (qnode T)) (q : aabb2 T) (j : nat) (l : list nat) := pin rect q l (objs_at ns j).
  Lemma pairs_node t a tree q j d l fuel : ok_tree t a tree -> anc tree j d l -> d <= fuel ->
    pairsNode rect fuel (qnodes t) q j = QDone (pin rect q l (objs_at (qnodes t) j)).
  Proof.
    intros O A Ld. unfold pairsNode. assert (I := anc_in _ _ _ _ A). pose proof (rep_lt _ _ _ (wf_rep _ _ _ (ot_wf _ _ _ O)) j I) as L.
    pose proof (pairsIn_pin rect (qnodes t) q tree j d l fuel (wf_rep _ _ _ (ot_wf _ _ _ O)) A Ld (objs_at (qnodes t) j)) as P.
    unfold parent_of in P. unfold objs_at in *. destruct (nth_error (qnodes t) j) as [nd|] eqn:E; [exact P|]. apply nth_error_None in E. lia.
  Qed.
  Lemma pairs_nodes t a tree q fuel : ok_tree t a tree -> length (qnodes t) <= fuel -> forall vs, NoDup vs -> (forall j, In j vs -> In j (aidx tree)) ->
    exists ps, pairsNodes rect fuel (qnodes t) q vs = QDone ps /\ NoDup ps /\
      forall o p, In (o, p) ps <-> exists j d l, In j vs /\ anc tree j d l /\ In (o, p) (pin rect q l (objs_at (qnodes t) j)).
  Proof.
    intros O Lf. assert (W := ot_wf _ _ _ O). destruct W as [W1 W2 W3]. induction vs as [|j vs IH]; intros Nd Hi; cbn [pairsNodes].
    - exists []. split; [reflexivity|]. split; [constructor|]. intros o p. split; [intros []|intros (j & ? & ? & [] & _)].
    - inversion Nd as [|? ? N1 N2]; subst. destruct (IH N2 (fun i I => Hi i (or_intror I))) as (ps & E & Np & Hp).
      destruct (anc_ex _ _ _ W1 j (Hi j (or_introl eq_refl))) as (d & l & A & Ld).
      rewrite (pairs_node t a tree q j d l fuel O A) by (pose proof (tree_size _ _ _ O); lia). cbn [qbind]. rewrite E. cbn [qbind].
      destruct (anc_nodup _ _ _ W1 W3 _ _ _ A) as [An Ai].
      eexists. split; [reflexivity|]. split.
      + apply nodup_app; [now apply pin_nodup|exact Np|]. intros [o p] I1 I2. apply Hp in I2. destruct I2 as (j' & d' & l' & Ij & A' & I2).
        apply pin_in in I1, I2. destruct I1 as [I1 _], I2 as [I2 _]. apply N1. replace j with j'; [exact Ij|].
        apply (holds_unique _ _ _ (ot_wf _ _ _ O) j' j o); apply (holds_iff _ _ _ W1); split; auto; eapply anc_in; eassumption.
      + intros o p. rewrite in_app_iff, Hp. split.
        * intros [I|(j' & d' & l' & Ij & A' & I2)]; [exists j, d, l; split; [now left|auto]|exists j', d', l'; split; [now right|auto]].
        * intros (j' & d' & l' & [<-|Ij] & A' & I2); [left|right; eauto 8]. destruct (anc_fun _ _ _ W1 W2 _ _ _ _ _ A A') as [-> ->]. exact I2.
  Qed.
  Lemma until_false {A} (l d : list A) : until (fun _ => false) l d = rev l ++ d.
  Proof. revert d. induction l as [|x l IH]; intros d; cbn; [reflexivity|]. rewrite IH, <- app_assoc. reflexivity. Qed.
  Lemma pairs_all t a tree q fuel : ok_tree t a tree -> length (qnodes t) <= fuel ->
    exists ps, QuadTree_CollidingPairsQuery rect fuel t q = QDone ps /\ NoDup ps /\
      forall o p, In (o, p) ps <-> exists j d l, In j (fullv t tree q) /\ anc tree j d l /\ In (o, p) (pin rect q l (objs_at (qnodes t) j)).
  Proof.
    intros O Lf. unfold QuadTree_CollidingPairsQuery. rewrite (query_full t a tree q _ fuel O Lf), until_false, app_nil_r. cbn [qbind]. rewrite rev_involutive.
    apply (pairs_nodes t a tree q fuel O Lf); [now apply (full_nodup _ a)|]. intros j I. now apply (full_in t a tree q).
  Qed.
  Lemma pairs_sound t a tree q o p j d l : ok_tree t a tree -> anc tree j d l -> In (o, p) (pin rect q l (objs_at (qnodes t) j)) ->
    In o (aobjs tree) /\ In p (aobjs tree) /\ o <> p /\ AABB2D_Intersects (rect o) (rect p) = true /\ AABB2D_Intersects q (rect o) = true.
  Proof.
    intros O A I. assert (W := ot_wf _ _ _ O). destruct W as [W1 W2 W3]. destruct (anc_nodup _ _ _ W1 W3 _ _ _ A) as [An Ai]. apply pin_in in I.
    destruct I as (Io & Q & X & D). assert (Ip : In p (objs_at (qnodes t) j ++ l)).
    { apply in_or_app. destruct D as [(l1 & l2 & -> & I)|I]; [left; apply in_or_app; right; now right|now right]. }
    split; [apply Ai, in_or_app; now left|]. split; [now apply Ai|]. split; [|auto]. intros <-. destruct D as [(l1 & l2 & E & I)|I].
    - rewrite E in An. destruct (NoDup_app_kd _ _ An) as (M1 & _ & _). apply NoDup_remove_2 in M1. apply M1. apply in_or_app. now right.
    - destruct (NoDup_app_kd _ _ An) as (_ & _ & M3). now apply (M3 o).
  Qed.
  Lemma pairs_once t a tree q o p j d l j' d' l' : ok_tree t a tree -> anc tree j d l -> anc tree j' d' l' ->
    In (o, p) (pin rect q l (objs_at (qnodes t) j)) -> In (p, o) (pin rect q l' (objs_at (qnodes t) j')) -> False.
  Proof.
    intros O A A' I I'. assert (W := ot_wf _ _ _ O). destruct W as [W1 W2 W3]. apply pin_in in I, I'. destruct I as (Io & _ & _ & D), I' as (Ip & _ & _ & D').
    assert (U : forall i i' e e' m m' x, anc tree i e m -> anc tree i' e' m' -> In x (objs_at (qnodes t) i) -> In x (objs_at (qnodes t) i') -> i = i').
    { intros i i' e e' m m' x B B' X X'. apply (holds_unique _ _ _ (ot_wf _ _ _ O) i i' x); apply (holds_iff _ _ _ W1); split; auto; eapply anc_in; eassumption. }
    assert (Bo : forall x y, before (objs_at (qnodes t) x) y p -> In p (objs_at (qnodes t) x)) by (intros x y (l1 & l2 & -> & J); apply in_or_app; right; now right).
    assert (Bo' : forall x y, before (objs_at (qnodes t) x) y o -> In o (objs_at (qnodes t) x)) by (intros x y (l1 & l2 & -> & J); apply in_or_app; right; now right).
    destruct (anc_nodup _ _ _ W1 W3 _ _ _ A) as [An _]. destruct (anc_nodup _ _ _ W1 W3 _ _ _ A') as [An' _].
    destruct (NoDup_app_kd _ _ An) as (M1 & _ & M3). destruct (NoDup_app_kd _ _ An') as (M1' & _ & M3').
    destruct D as [D|D], D' as [D'|D'].
    - assert (j = j') as <- by (eapply (U j j'); [exact A|exact A'|exact (Bo _ _ D)|exact Ip]). now apply (before_anti _ o p M1).
    - assert (j = j') as <- by (eapply (U j j'); [exact A|exact A'|exact (Bo _ _ D)|exact Ip]). now apply (M3' o Io).
    - assert (j = j') as <- by (eapply (U j j'); [exact A|exact A'|exact Io|exact (Bo' _ _ D')]). now apply (M3 p Ip).
    - destruct (anc_up _ _ _ W1 _ _ _ _ A D) as (i & e & m & B & Le & X). destruct (anc_up _ _ _ W1 _ _ _ _ A' D') as (i' & e' & m' & B' & Le' & X').
      assert (j' = i) as <- by (eapply (U j' i); eassumption). assert (j = i') as <- by (eapply (U j i'); eassumption).
      destruct (anc_fun _ _ _ W1 W2 _ _ _ _ _ A B') as [<- _]. destruct (anc_fun _ _ _ W1 W2 _ _ _ _ _ A' B) as [<- _]. lia.
  Qed.
  Lemma pairs_complete t a tree q o p : ok_tree t a tree -> InvG (qbound t) tree -> In o (aobjs tree) -> In p (aobjs tree) -> o <> p ->
    finb (rect o) -> finb (rect p) -> overlap (rect o) (rect p) -> AABB2D_Intersects q (rect o) = true -> AABB2D_Intersects q (rect p) = true ->
    exists j d l, In j (fullv t tree q) /\ anc tree j d l /\
      (In (o, p) (pin rect q l (objs_at (qnodes t) j)) \/ In (p, o) (pin rect q l (objs_at (qnodes t) j))).
  Proof.
    intros O V Io Ip N Fo Fp Ov Qo Qp. assert (W := ot_wf _ _ _ O). destruct W as [W1 W2 W3].
    destruct (objs_holds _ _ _ _ W1 Io) as [j Hj]. destruct (objs_holds _ _ _ _ W1 Ip) as [j' Hj'].
    pose proof (full_complete _ _ _ q _ _ O V Hj Fo Qo) as Vj. pose proof (full_complete _ _ _ q _ _ O V Hj' Fp Qp) as Vj'.
    pose proof (proj1 (holds_iff _ _ _ W1 _ _) Hj) as [Ij Oj]. pose proof (proj1 (holds_iff _ _ _ W1 _ _) Hj') as [Ij' Oj'].
    destruct (anc_ex _ _ _ W1 j Ij) as (d & l & A & _). destruct (anc_ex _ _ _ W1 j' Ij') as (d' & l' & A' & _).
    destruct V as (V1 & V2 & V3). destruct (Bi _ _ _ V2) as [C0 R0]. pose proof (overlap_intersects _ _ Ov) as X. pose proof (overlap_intersects _ _ (overlap_sym _ _ Ov)) as X'.
    destruct (overlap_line rect _ _ _ W1 V1 C0 R0 _ _ _ _ _ _ _ _ A A' Oj Oj' Fo Fp Ov) as [<-|[I|I]].
    - exists j, d, l. split; [exact Vj|]. split; [exact A|]. destruct (before_or _ _ _ Oj Oj' N) as [B|B]; [left|right]; apply pin_in; auto 8.
    - exists j, d, l. split; [exact Vj|]. split; [exact A|]. left. apply pin_in; auto 8.
    - exists j', d', l'. split; [exact Vj'|]. split; [exact A'|]. right. apply pin_in; auto 8.
  Qed.
End QueryTree.
