(** Lemmas for the quadtree properties: the node array represents a tree, and insertion keeps it one. *)
From Coq Require Import ZArith Bool List Permutation Lia.
From Verif Require Import Num ScalarModel Vec2Model KdTreeModel KdTreeProofs QuadTreeModel.
Import ListNotations.
Ltac Zify.zify_post_hook ::= idtac.
Local Open Scope nat_scope.

Section Lists.
  Context {A : Type}.
  Lemma update_self : forall (l : list A) i x, nth_error l i = Some x -> update l i x = l.
  Proof.
    unfold update. induction l as [|a l IH]; intros [|i] x E; cbn in *; try discriminate; [injection E as <-; reflexivity|]. f_equal. now apply IH.
  Qed.
  Lemma update_split (l : list A) i x y : nth_error l i = Some x -> exists l1 l2, l = l1 ++ x :: l2 /\ length l1 = i /\ update l i y = l1 ++ y :: l2.
  Proof.
    intros E. destruct (nth_error_split l i E) as (l1 & l2 & -> & L). exists l1, l2. do 2 (split; [auto|]). unfold update. subst i.
    rewrite firstn_app, Nat.sub_diag, firstn_all, firstn_O, app_nil_r. f_equal.
    rewrite skipn_app, skipn_all, Nat.sub_diag. reflexivity.
  Qed.
  Lemma update_update (l : list A) i x y : update (update l i x) i y = update l i y.
  Proof. revert i; induction l as [|a l IH]; intros [|i]; unfold update in *; cbn; auto. f_equal. apply IH. Qed.
  Lemma update_comm (l : list A) i j x y : i <> j -> update (update l i x) j y = update (update l j y) i x.
  Proof.
    revert i j; induction l as [|a l IH]; intros [|i] [|j] N; unfold update in *; cbn; auto; try lia. f_equal. apply IH. lia.
  Qed.
  Lemma removelast_last_perm (l : list A) d : l <> [] -> Permutation l (last l d :: removelast l).
  Proof. intros N. rewrite (app_removelast_last d N) at 1. symmetry. apply Permutation_cons_append. Qed.
End Lists.

Lemma swap_remove_perm l i o : nth_error l i = Some o -> Permutation l (o :: swap_remove l i).
Proof.
  intros E. destruct (update_split l i o (last l 0) E) as (l1 & l2 & El & L & Eu). unfold swap_remove. rewrite Eu.
  destruct l2 as [|b l2].
  - rewrite El, last_last, removelast_last. symmetry. apply Permutation_cons_append.
  - replace (removelast (l1 ++ last l 0 :: b :: l2)) with (l1 ++ last l 0 :: removelast (b :: l2)).
    + rewrite El at 1. transitivity (o :: l1 ++ b :: l2); [symmetry; apply Permutation_middle|]. constructor. replace (last l 0) with (last (b :: l2) 0).
      * apply Permutation_app_head. now apply removelast_last_perm.
      * rewrite El. clear. induction l1 as [|x l1 IH]; [reflexivity|]. cbn [app]. destruct (l1 ++ o :: b :: l2) eqn:E; [destruct l1; discriminate|]. exact IH.
    + rewrite removelast_app by discriminate. reflexivity.
Qed.
Lemma swap_remove_length l i : i < length l -> S (length (swap_remove l i)) = length l.
Proof.
  intros L. destruct (nth_error l i) as [o|] eqn:E; [|apply nth_error_None in E; lia].
  pose proof (Permutation_length (swap_remove_perm l i o E)) as P. cbn in P. lia.
Qed.
Lemma qbind_done {A B} (x : outcome A) (f : A -> outcome B) b : qbind x f = QDone b -> exists a, x = QDone a /\ f a = QDone b.
Proof. destruct x; cbn; intros E; try discriminate. eauto. Qed.

Section QtP.
  Context {T : Type} `{NT : Num T}.
  Variable rect : nat -> aabb2 T.
  (** What is kept about a child in quadrant q: where its objects are, and how its centre and radius relate to the parent's. *)
  Variable side : nat -> v2 T -> nat -> Prop.
  Variable link : nat -> v2 T -> v2 T -> v2 T -> v2 T -> Prop.
  Definition childc (q : nat) (c r : v2 T) : v2 T :=
    match q with
    | 0 => sub2 c r
    | 1 => V2 (nadd (x2 c) (x2 r)) (nsub (y2 c) (y2 r))
    | 2 => V2 (nsub (x2 c) (x2 r)) (nadd (y2 c) (y2 r))
    | _ => add2 c r
    end.
  Hypothesis Hside : forall c o, straddles rect c o = false -> side (quadrant rect c o) c o.
  Hypothesis Hlink : forall q c r, q < 4 -> link q c r (childc q c (muls2 r nhalf)) (muls2 r nhalf).

  Inductive qtr := QL (i : nat) (os : list nat) (c r : v2 T) | QI (i : nat) (os : list nat) (c r : v2 T) (ch : nat) (ks : list qtr).
  Definition qidx t := match t with QL i _ _ _ => i | QI i _ _ _ _ _ => i end.
  Definition own t := match t with QL _ os _ _ => os | QI _ os _ _ _ _ => os end.
  Definition cen t := match t with QL _ _ c _ => c | QI _ _ c _ _ _ => c end.
  Definition rad t := match t with QL _ _ _ r => r | QI _ _ _ r _ _ => r end.
  Definition kid t := match t with QL _ _ _ _ => None | QI _ _ _ _ ch _ => Some ch end.
  Fixpoint aidx t := match t with QL i _ _ _ => [i] | QI i _ _ _ _ ks => i :: flat_map aidx ks end.
  Fixpoint aobjs t := match t with QL _ os _ _ => os | QI _ os _ _ _ ks => os ++ flat_map aobjs ks end.
  Inductive qrep (ns : list (qnode T)) : option nat -> qtr -> Prop :=
  | rep_leaf par i os c r : nth_error ns i = Some (QN par None os c r) -> qrep ns par (QL i os c r)
  | rep_node par i os c r ch ks : nth_error ns i = Some (QN par (Some ch) os c r) -> length ks = 4 ->
      (forall q t, nth_error ks q = Some t -> qidx t = ch + q) -> (forall q t, nth_error ks q = Some t -> qrep ns (Some i) t) ->
      qrep ns par (QI i os c r ch ks).
  (** Object p is stored in node j. *)
  Inductive holds : qtr -> nat -> nat -> Prop :=
  | holds_own t p : In p (own t) -> holds t (qidx t) p
  | holds_kid i os c r ch ks q t j p : nth_error ks q = Some t -> holds t j p -> holds (QI i os c r ch ks) j p.
  Definition home (a : assocs) t := forall j p, holds t j p -> a p = Some j.
  Inductive inv : qtr -> Prop :=
  | inv_leaf i os c r : inv (QL i os c r)
  | inv_node i os c r ch ks : (forall q t p, nth_error ks q = Some t -> In p (aobjs t) -> side q c p) ->
      (forall q t, nth_error ks q = Some t -> link q c r (cen t) (rad t)) ->
      (forall q t, nth_error ks q = Some t -> inv t) -> inv (QI i os c r ch ks).

  Lemma qidx_in t : In (qidx t) (aidx t).
  Proof. destruct t; cbn; auto. Qed.
  Lemma kid_in (f : qtr -> list nat) ks q t x : nth_error ks q = Some t -> In x (f t) -> In x (flat_map f ks).
  Proof. intros E I. apply in_flat_map. exists t. split; [now apply nth_error_In in E|assumption]. Qed.
  Lemma holds_objs t j p : holds t j p -> In p (aobjs t) /\ In j (aidx t).
  Proof.
    induction 1 as [t p I|i os c r ch ks q t j p E _ [IH1 IH2]].
    - split; [|apply qidx_in]. destruct t; cbn in *; auto. apply in_or_app. now left.
    - cbn. split; [apply in_or_app; right; now apply (kid_in aobjs ks q t)|right; now apply (kid_in aidx ks q t)].
  Qed.
  Lemma holds_kid_inv i os c r ch ks j p : holds (QI i os c r ch ks) j p -> (j = i /\ In p os) \/ exists q t, nth_error ks q = Some t /\ holds t j p.
  Proof. inversion 1; subst; [left; auto|right; eauto]. Qed.
  Lemma frame ns ns' par t : qrep ns par t -> (forall j, In j (aidx t) -> nth_error ns' j = nth_error ns j) -> qrep ns' par t.
  Proof.
    induction 1 as [par i os c r E|par i os c r ch ks E L Ix Rk IH]; intros F.
    - constructor. rewrite F; [assumption|now left].
    - constructor; auto. { rewrite F; [assumption|now left]. }
      intros q t Eq. apply (IH q t Eq). intros j Ij. apply F. right. now apply (kid_in aidx ks q t).
  Qed.
  Lemma rep_root ns par t : qrep ns par t -> nth_error ns (qidx t) = Some (QN par (kid t) (own t) (cen t) (rad t)).
  Proof. destruct 1; assumption. Qed.
  Lemma rep_lt ns par t : qrep ns par t -> forall j, In j (aidx t) -> j < length ns.
  Proof.
    induction 1 as [par i os c r E|par i os c r ch ks E L Ix Rk IH]; intros j I.
    - destruct I as [<-|[]]. now apply nth_some_lt in E.
    - destruct I as [<-|I]; [now apply nth_some_lt in E|]. apply in_flat_map in I. destruct I as (t & It & I).
      apply In_nth_error in It. destruct It as [q Eq]. now apply (IH q t).
  Qed.
  Lemma holds_at ns par t : qrep ns par t -> forall j p, holds t j p -> exists nd, nth_error ns j = Some nd /\ In p (qobjs nd).
  Proof.
    induction 1 as [par i os c r E|par i os c r ch ks E L Ix Rk IH]; intros j p H.
    - inversion H; subst. eauto.
    - inversion H; subst; eauto.
  Qed.

  (** *** Replacing one child *)
  Lemma nodup_kids {B} (f : qtr -> list B) ks : NoDup (flat_map f ks) -> forall q q' t t' x, nth_error ks q = Some t -> nth_error ks q' = Some t' ->
    In x (f t) -> In x (f t') -> q = q'.
  Proof.
    induction ks as [|k ks IH]; cbn; intros N q q' t t' x E E' I I'; [destruct q; discriminate|].
    destruct (NoDup_app_kd _ _ N) as (_ & N2 & D).
    destruct q, q'; cbn in *; auto.
    - injection E as ->. exfalso. apply (D x I). apply in_flat_map. exists t'. split; [now apply nth_error_In in E'|assumption].
    - injection E' as ->. exfalso. apply (D x I'). apply in_flat_map. exists t. split; [now apply nth_error_In in E|assumption].
    - f_equal. eapply IH; eassumption.
  Qed.
  Lemma nodup_kid {B} (f : qtr -> list B) ks q t : NoDup (flat_map f ks) -> nth_error ks q = Some t -> NoDup (f t).
  Proof.
    revert q. induction ks as [|k ks IH]; cbn; intros q N E; [destruct q; discriminate|]. destruct (NoDup_app_kd _ _ N) as (N1 & N2 & _).
    destruct q; cbn in E; [injection E as <-; assumption|eauto].
  Qed.
  Lemma flat_update {B} (f : qtr -> list B) ks q t t' l : nth_error ks q = Some t -> Permutation (f t') (l ++ f t) ->
    Permutation (flat_map f (update ks q t')) (l ++ flat_map f ks).
  Proof.
    intros E P. destruct (update_split ks q t t' E) as (l1 & l2 & -> & _ & ->). rewrite !flat_map_app. cbn [flat_map]. rewrite P, !app_assoc.
    apply Permutation_app_tail. apply Permutation_app_tail. apply Permutation_app_comm.
  Qed.

  Record wf (ns : list (qnode T)) (par : option nat) (t : qtr) : Prop := Wf {
    wf_rep : qrep ns par t; wf_nd : NoDup (aidx t); wf_no : NoDup (aobjs t) }.
  (** The effect of an insertion of the objects [os] below t. *)
  Record effect (ns : list (qnode T)) (a : assocs) (par : option nat) (t : qtr) (os : list nat)
                (ns' : list (qnode T)) (a' : assocs) (t' : qtr) : Prop := Eff {
    e_rep : qrep ns' par t';
    e_idx : qidx t' = qidx t; e_cen : cen t' = cen t; e_rad : rad t' = rad t;
    e_len : length ns <= length ns';
    e_new : Permutation (aidx t') (seq (length ns) (length ns' - length ns) ++ aidx t);
    e_old : forall j, j < length ns -> ~ In j (aidx t) -> nth_error ns' j = nth_error ns j;
    e_obj : Permutation (aobjs t') (os ++ aobjs t);
    e_frame : forall p, ~ In p (os ++ aobjs t) -> a' p = a p;
    e_home : home a t -> home a' t';
    e_inv : inv t -> inv t' }.

  Lemma e_wf ns a par t os ns' a' t' : wf ns par t -> NoDup (os ++ aobjs t) -> effect ns a par t os ns' a' t' -> wf ns' par t'.
  Proof.
    intros [W1 W2 W3] N E. constructor; [apply E| |].
    - eapply Permutation_NoDup; [symmetry; apply E|]. apply nodup_app; [apply seq_NoDup|assumption|].
      intros j I1 I2. apply in_seq in I1. apply (rep_lt _ _ _ W1) in I2. lia.
    - eapply Permutation_NoDup; [symmetry; apply E|]. exact N.
  Qed.

  Lemma update_nth (ks : list qtr) q t t' q1 t1 : nth_error ks q = Some t -> nth_error (update ks q t') q1 = Some t1 ->
    (q1 = q /\ t1 = t') \/ (q1 <> q /\ nth_error ks q1 = Some t1).
  Proof.
    intros E E1. destruct (Nat.eq_dec q q1) as [<-|N].
    - rewrite update_eq in E1 by (now apply nth_some_lt in E). injection E1 as <-. auto.
    - rewrite update_neq in E1 by assumption. auto.
  Qed.

  (** An effect on the child in quadrant q, followed by writing the parent with other objects os'. *)
  Lemma lift_kid ns a par i os c r ch ks q tq o ns1 a1 tq' os' :
    wf ns par (QI i os c r ch ks) -> nth_error ks q = Some tq -> effect ns a (Some i) tq [o] ns1 a1 tq' ->
    let t' := QI i os' c r ch (update ks q tq') in
    let ns' := update ns1 i (QN par (Some ch) os' c r) in
    qrep ns' par t' /\ length ns <= length ns' /\
    Permutation (aidx t') (seq (length ns) (length ns' - length ns) ++ i :: flat_map aidx ks) /\
    (forall j, j < length ns -> ~ In j (i :: flat_map aidx ks) -> nth_error ns' j = nth_error ns j) /\
    nth_error ns1 i = Some (QN par (Some ch) os c r) /\
    Permutation (flat_map aobjs (update ks q tq')) (o :: flat_map aobjs ks).
  Proof.
    intros [W1 W2 W3] Eq E t' ns'. inversion W1 as [|? ? ? ? ? ? ? En Lk Ix Rk]; subst.
    pose proof (nth_some_lt _ _ _ En) as Li. cbn [aidx] in W2. inversion W2 as [|? ? N1 N2]; subst.
    assert (Ni : ~ In i (aidx tq)) by (intros I; apply N1; now apply (kid_in aidx ks q tq)).
    assert (Ei : nth_error ns1 i = Some (QN par (Some ch) os c r)) by (rewrite (e_old _ _ _ _ _ _ _ _ E i Li Ni); assumption).
    assert (Ll : length ns' = length ns1) by apply update_length.
    assert (Li1 : i < length ns1) by now apply nth_some_lt in Ei.
    assert (P1 : Permutation (flat_map aidx (update ks q tq')) (seq (length ns) (length ns1 - length ns) ++ flat_map aidx ks)) by (eapply flat_update; [exact Eq|apply E]).
    split; [|split; [|split; [|split; [|split]]]].
    - constructor; [now apply update_eq|rewrite <- Lk; apply update_length| |].
      + intros q1 t1 E1. destruct (update_nth _ _ _ _ _ _ Eq E1) as [[-> ->]|[N E2]]; [rewrite (e_idx _ _ _ _ _ _ _ _ E)|]; now apply Ix.
      + intros q1 t1 E1. destruct (update_nth _ _ _ _ _ _ Eq E1) as [[-> ->]|[N E2]].
        * apply (frame ns1); [apply E|]. intros j Ij. apply update_neq. intros <-. apply (Permutation_in _ (e_new _ _ _ _ _ _ _ _ E)) in Ij.
          apply in_app_or in Ij. destruct Ij as [Ij|Ij]; [apply in_seq in Ij; lia|contradiction].
        * apply (frame ns); [now apply (Rk q1)|]. intros j Ij. unfold ns'. rewrite update_neq.
          -- apply (e_old _ _ _ _ _ _ _ _ E); [now apply (rep_lt _ _ _ (Rk q1 t1 E2))|].
             intros Ij'. apply N. eapply (nodup_kids aidx ks N2); eassumption.
          -- intros <-. apply N1. now apply (kid_in aidx ks q1 t1).
    - rewrite Ll. apply E.
    - rewrite Ll. unfold t'. cbn [aidx]. rewrite P1. apply Permutation_middle.
    - intros j Lj Nj. unfold ns'. rewrite update_neq by (intros <-; apply Nj; now left). apply (e_old _ _ _ _ _ _ _ _ E); [assumption|].
      intros Ij. apply Nj. right. now apply (kid_in aidx ks q tq).
    - exact Ei.
    - change (o :: flat_map aobjs ks) with ([o] ++ flat_map aobjs ks). eapply flat_update; [exact Eq|apply E].
  Qed.

  Lemma quadrant_lt c o : quadrant rect c o < 4.
  Proof. unfold quadrant. destruct (nltb _ _), (nltb _ _); lia. Qed.

  Lemma push_leaf ns a par t o : wf ns par t -> ~ In o (aobjs t) ->
    let t' := match t with QL i os c r => QL i (os ++ [o]) c r | QI i os c r ch ks => QI i (os ++ [o]) c r ch ks end in
    effect ns a par t [o] (update ns (qidx t) (QN par (kid t) (own t ++ [o]) (cen t) (rad t))) (set_assoc a o (Some (qidx t))) t'.
  Proof.
    intros [W1 W2 W3] No t'. pose proof (rep_root _ _ _ W1) as En. pose proof (nth_some_lt _ _ _ En) as Li.
    assert (Ix : qidx t' = qidx t) by now destruct t.
    constructor; try (now destruct t); rewrite ?update_length; auto.
    - destruct W1 as [par i os c r E|par i os c r ch ks E L Ix' Rk]; cbn in *.
      + constructor. now apply update_eq.
      + constructor; auto; [now apply update_eq|]. intros q tq Eq. apply (frame ns); [now apply (Rk q)|]. intros j Ij.
        apply update_neq. intros <-. inversion W2 as [|? ? N1 N2]; subst. apply N1. now apply (kid_in aidx ks q tq).
    - replace (length ns - length ns) with 0 by lia. cbn. now destruct t.
    - intros j Lj Nj. apply update_neq. intros <-. apply Nj. apply qidx_in.
    - destruct t; cbn; [rewrite Permutation_app_comm; reflexivity|]. rewrite <- app_assoc. cbn. symmetry. apply Permutation_middle.
    - intros p Np. unfold set_assoc. destruct (Nat.eqb_spec p o) as [->|]; [|reflexivity]. exfalso. apply Np. now left.
    - intros Hm j p Hp. unfold set_assoc. destruct (Nat.eqb_spec p o) as [->|N].
      + f_equal. rewrite <- Ix. destruct t as [i os c r|i os c r ch ks]; [unfold t' in Hp; inversion Hp; subst; reflexivity|].
        apply holds_kid_inv in Hp. destruct Hp as [[-> _]|(q & t0 & E0 & H0)]; [reflexivity|].
        exfalso. apply No. cbn. apply in_or_app. right. apply (kid_in aobjs ks q t0); [assumption|]. now apply holds_objs in H0.
      + apply Hm. destruct t as [i os c r|i os c r ch ks]; unfold t' in Hp; inversion Hp; subst; cbn in *.
        * change i with (qidx (QL i os c r)). constructor. cbn. apply in_app_or in H. destruct H as [H|[H|[]]]; [assumption|congruence].
        * change i with (qidx (QI i os c r ch ks)). constructor. cbn. apply in_app_or in H. destruct H as [H|[H|[]]]; [assumption|congruence].
        * econstructor; eassumption.
    - intros V. destruct V; constructor; auto.
  Qed.

  Definition add_ok fuel := forall ns a o n ns' a' par t, wf ns par t -> qidx t = n -> ~ In o (aobjs t) ->
    addAt rect fuel ns a o n = QDone (ns', a') -> exists t', effect ns a par t [o] ns' a' t'.
  Definition split_ok fuel := forall ns a i os c r ns' a' par, wf ns par (QL i os c r) ->
    splitAt rect fuel ns a i = QDone (ns', a') -> exists t', effect ns a par (QL i os c r) [] ns' a' t'.
  Definition loop_ok fuel := forall ns a i os c r ch ks k ns' a' par, wf ns par (QI i os c r ch ks) ->
    splitLoop rect fuel ns a i k = QDone (ns', a') -> exists t', effect ns a par (QI i os c r ch ks) [] ns' a' t'.

  Lemma effect_refl ns a par t : qrep ns par t -> effect ns a par t [] ns a t.
  Proof. intros W. constructor; auto. rewrite Nat.sub_diag. reflexivity. Qed.
  Lemma effect_trans ns a par t os ns1 a1 t1 os' ns2 a2 t2 : qrep ns par t ->
    effect ns a par t os ns1 a1 t1 -> effect ns1 a1 par t1 os' ns2 a2 t2 -> effect ns a par t (os' ++ os) ns2 a2 t2.
  Proof.
    intros W E F. assert (L1 := e_len _ _ _ _ _ _ _ _ E). assert (L2 := e_len _ _ _ _ _ _ _ _ F). constructor.
    - apply F.
    - rewrite (e_idx _ _ _ _ _ _ _ _ F). apply E.
    - rewrite (e_cen _ _ _ _ _ _ _ _ F). apply E.
    - rewrite (e_rad _ _ _ _ _ _ _ _ F). apply E.
    - lia.
    - rewrite (e_new _ _ _ _ _ _ _ _ F), (e_new _ _ _ _ _ _ _ _ E), app_assoc. apply Permutation_app_tail.
      rewrite Permutation_app_comm. replace (length ns1) with (length ns + (length ns1 - length ns)) at 2 by lia.
      rewrite <- seq_app. replace (length ns1 - length ns + (length ns2 - length ns1)) with (length ns2 - length ns) by lia. reflexivity.
    - intros j Lj Nj. rewrite (e_old _ _ _ _ _ _ _ _ F), (e_old _ _ _ _ _ _ _ _ E); auto; [lia|].
      intros Ij. apply (Permutation_in _ (e_new _ _ _ _ _ _ _ _ E)) in Ij. apply in_app_or in Ij. destruct Ij as [Ij|Ij]; [|contradiction].
      apply in_seq in Ij. lia.
    - rewrite (e_obj _ _ _ _ _ _ _ _ F), (e_obj _ _ _ _ _ _ _ _ E). now rewrite app_assoc.
    - intros p Np. rewrite !in_app_iff in Np. rewrite (e_frame _ _ _ _ _ _ _ _ F), (e_frame _ _ _ _ _ _ _ _ E); auto; [rewrite in_app_iff; tauto|].
      intros Ip. apply in_app_or in Ip. destruct Ip as [Ip|Ip]; [tauto|]. apply (Permutation_in _ (e_obj _ _ _ _ _ _ _ _ E)) in Ip. apply in_app_or in Ip. tauto.
    - intros Hm. apply F, E, Hm.
    - intros V. apply F, E, V.
  Qed.


  Lemma step_add fuel : add_ok fuel -> split_ok fuel -> add_ok (S fuel).
  Proof.
    intros IHa IHs ns a o n ns' a' par t W In_ No E. subst n. cbn [addAt] in E. rewrite (rep_root _ _ _ (wf_rep _ _ _ W)) in E.
    cbn [qcenter qchild qobjs qradius push] in E. pose proof (push_leaf ns a par t o W No) as Pu. cbn zeta in Pu.
    destruct (straddles rect (cen t) o) eqn:St. { injection E as <- <-. eexists; exact Pu. }
    destruct t as [i os c r|i os c r ch ks]; cbn [kid qidx own cen rad] in *.
    - destruct (_ && _) in E; [|injection E as <- <-; eexists; exact Pu].
      assert (Nd : NoDup ([o] ++ aobjs (QL i os c r))) by (constructor; [assumption|apply W]).
      destruct (IHs _ _ _ _ _ _ _ _ _ (e_wf _ _ _ _ [o] _ _ _ W Nd Pu) E) as [t' Et].
      exists t'. change [o] with ([] ++ [o]). eapply effect_trans; [apply W|exact Pu|exact Et].
    - pose proof (quadrant_lt c o) as Lq. assert (W' := W). destruct W' as [W1 W2 W3]. inversion W1 as [|? ? ? ? ? ? ? En Lk Ix Rk]; subst.
      destruct (nth_error ks (quadrant rect c o)) as [tq|] eqn:Eq; [|apply nth_error_None in Eq; lia].
      cbn [aidx aobjs] in *. inversion W2 as [|? ? N1 N2]; subst. destruct (NoDup_app_kd _ _ W3) as (M1 & M2 & M3).
      assert (Noq : ~ In o (aobjs tq)) by (intros I; apply No; apply in_or_app; right; exact (kid_in aobjs ks _ tq _ Eq I)).
      destruct (IHa ns a o (ch + quadrant rect c o) ns' a' (Some i) tq) as [tq' Et]; auto.
      { constructor; [now apply (Rk (quadrant rect c o))|now apply (nodup_kid aidx ks (quadrant rect c o))|now apply (nodup_kid aobjs ks (quadrant rect c o))]. }
      destruct (lift_kid ns a par i os c r ch ks _ tq o ns' a' tq' os W Eq Et) as (L1 & L2 & L3 & L4 & L5 & L6).
      assert (Us : update ns' i (QN par (Some ch) os c r) = ns') by now apply update_self. rewrite Us in *.
      exists (QI i os c r ch (update ks (quadrant rect c o) tq')). constructor; auto.
      + cbn [aobjs]. rewrite L6. symmetry. apply (Permutation_middle os (flat_map aobjs ks) o).
      + intros p Np. apply (e_frame _ _ _ _ _ _ _ _ Et). intros Ip. apply Np. cbn [app] in Ip. cbn [app aobjs]. destruct Ip as [<-|Ip]; [now left|].
        right. apply in_or_app. right. exact (kid_in aobjs ks _ tq _ Eq Ip).
      + intros Hm j p Hp. apply holds_kid_inv in Hp. destruct Hp as [[-> Ip]|(q1 & t1 & E1 & Hp)].
        * rewrite (e_frame _ _ _ _ _ _ _ _ Et). { apply Hm. apply (holds_own (QI i os c r ch ks)). exact Ip. }
          cbn [app]. intros [<-|Ip']; [apply No; apply in_or_app; now left|]. apply (M3 p Ip). exact (kid_in aobjs ks _ tq _ Eq Ip').
        * destruct (update_nth _ _ _ _ _ _ Eq E1) as [[-> ->]|[N E2]].
          -- apply (e_home _ _ _ _ _ _ _ _ Et); [|assumption]. intros j' p' H'. apply Hm. econstructor; eassumption.
          -- rewrite (e_frame _ _ _ _ _ _ _ _ Et). { apply Hm. econstructor; eassumption. }
             destruct (holds_objs _ _ _ Hp) as [Ip _]. cbn [app]. intros [<-|Ip']; [apply No; apply in_or_app; right; now apply (kid_in aobjs ks q1 t1)|].
             apply N. eapply (nodup_kids aobjs ks M2); eassumption.
      + intros V. inversion V as [|? ? ? ? ? ? V1 V2 V3]; subst. constructor.
        * intros q1 t1 p E1 Ip. destruct (update_nth _ _ _ _ _ _ Eq E1) as [[-> ->]|[N E2]]; [|now apply (V1 q1 t1)].
          apply (Permutation_in _ (e_obj _ _ _ _ _ _ _ _ Et)) in Ip. cbn in Ip. destruct Ip as [<-|Ip]; [now apply Hside|now apply (V1 _ tq)].
        * intros q1 t1 E1. destruct (update_nth _ _ _ _ _ _ Eq E1) as [[-> ->]|[N E2]]; [|now apply V2].
          rewrite (e_cen _ _ _ _ _ _ _ _ Et), (e_rad _ _ _ _ _ _ _ _ Et). now apply V2.
        * intros q1 t1 E1. destruct (update_nth _ _ _ _ _ _ Eq E1) as [[-> ->]|[N E2]]; [|now apply (V3 q1)].
          apply (e_inv _ _ _ _ _ _ _ _ Et). now apply (V3 _ tq Eq).
  Qed.

  Definition freshKids (n : nat) (c r : v2 T) : list qtr :=
    map (fun q => QL (n + q) [] (childc q c (muls2 r nhalf)) (muls2 r nhalf)) [0; 1; 2; 3].
  Lemma split_effect ns a i os c r par : wf ns par (QL i os c r) ->
    effect ns a par (QL i os c r) [] (update (ns ++ newGroup (Some i) c r) i (QN par (Some (length ns)) os c r)) a
      (QI i os c r (length ns) (freshKids (length ns) c r)).
  Proof.
    intros [W1 W2 W3]. pose proof (rep_root _ _ _ W1) as En. cbn in En. pose proof (nth_some_lt _ _ _ En) as Li.
    set (ns1 := update (ns ++ newGroup (Some i) c r) i (QN par (Some (length ns)) os c r)) in *.
    set (t1 := QI i os c r (length ns) (freshKids (length ns) c r)).
    assert (L1 : length ns1 = length ns + 4) by (unfold ns1; rewrite update_length, app_length; reflexivity).
    assert (Ek : forall q t, nth_error (freshKids (length ns) c r) q = Some t -> q < 4 /\ t = QL (length ns + q) [] (childc q c (muls2 r nhalf)) (muls2 r nhalf)).
    { intros q t Eq. destruct q as [|[|[|[|q]]]]; cbn in Eq; try (injection Eq as <-; split; [lia|reflexivity]). destruct q; discriminate. }
    constructor; try reflexivity; auto.
      - constructor; [apply update_eq; rewrite app_length; lia|reflexivity| |].
        + intros q t Eq. apply Ek in Eq. destruct Eq as [_ ->]. reflexivity.
        + intros q t Eq. apply Ek in Eq. destruct Eq as [Lq ->]. constructor. unfold ns1. rewrite update_neq by lia.
          rewrite nth_error_app2 by lia. replace (length ns + q - length ns) with q by lia.
          destruct q as [|[|[|[|q]]]]; try lia; reflexivity.
      - lia.
      - rewrite L1. replace (length ns + 4 - length ns) with 4 by lia. cbn [aidx t1 freshKids flat_map map app seq].
        replace (length ns + 0) with (length ns) by lia. replace (S (length ns)) with (length ns + 1) by lia.
        replace (S (length ns + 1)) with (length ns + 2) by lia. replace (S (length ns + 2)) with (length ns + 3) by lia.
        apply (Permutation_middle [length ns; length ns + 1; length ns + 2; length ns + 3] [] i).
      - intros j Lj Nj. unfold ns1. rewrite update_neq by (intros <-; apply Nj; now left). now rewrite nth_error_app1.
      - cbn. now rewrite app_nil_r.
      - intros Hm j p Hp. apply holds_kid_inv in Hp. destruct Hp as [[-> Ip]|(q & t & Eq & Hp)].
        + apply Hm. now apply (holds_own (QL i os c r)).
        + apply Ek in Eq. destruct Eq as [_ ->]. inversion Hp; subst. contradiction.
      - intros _. constructor.
        + intros q t p Eq Ip. apply Ek in Eq. destruct Eq as [_ ->]. contradiction.
        + intros q t Eq. apply Ek in Eq. destruct Eq as [Lq ->]. now apply Hlink.
        + intros q t Eq. apply Ek in Eq. destruct Eq as [_ ->]. constructor.
  Qed.
  Lemma step_split fuel : loop_ok fuel -> split_ok (S fuel).
  Proof.
    intros IHl ns a i os c r ns' a' par W E. cbn [splitAt] in E. assert (W' := W). destruct W' as [W1 W2 W3].
    pose proof (rep_root _ _ _ W1) as En. cbn in En. rewrite En in E. cbn [qcenter qradius qparent qobjs] in E.
    apply qbind_done in E. destruct E as (ns1 & Ea & E). unfold Allocate in Ea. destruct (N.leb _ _); [|discriminate]. injection Ea as <-.
    pose proof (split_effect ns a i os c r par W) as Ef.
    destruct (IHl _ _ _ _ _ _ _ _ _ _ _ _ (e_wf _ _ _ _ [] _ _ _ W W3 Ef) E) as [t' Et].
    exists t'. change (@nil nat) with (@nil nat ++ []). eapply effect_trans; [exact W1|exact Ef|exact Et].
  Qed.

  Lemma step_loop fuel : add_ok fuel -> loop_ok fuel -> loop_ok (S fuel).
  Proof.
    intros IHa IHl ns a i os c r ch ks k ns' a' par W E. cbn [splitLoop] in E. assert (W' := W). destruct W' as [W1 W2 W3].
    inversion W1 as [|? ? ? ? ? ? ? En Lk Ix Rk]; subst. rewrite En in E. cbn [qcenter qchild qobjs] in E.
    destruct (nth_error os k) as [o|] eqn:Eo. 2: { injection E as <- <-. eexists. now apply effect_refl. }
    destruct (straddles rect c o) eqn:St. { exact (IHl _ _ _ _ _ _ _ _ _ _ _ _ W E). }
    apply qbind_done in E. destruct E as ([ns1 a1] & Ea & E).
    pose proof (quadrant_lt c o) as Lq.
    destruct (nth_error ks (quadrant rect c o)) as [tq|] eqn:Eq; [|apply nth_error_None in Eq; lia].
    cbn [aidx aobjs] in *. inversion W2 as [|? ? N1 N2]; subst. destruct (NoDup_app_kd _ _ W3) as (M1 & M2 & M3).
    pose proof (nth_error_In _ _ Eo) as Ioo.
    assert (Noq : ~ In o (aobjs tq)) by (intros I; apply (M3 o Ioo); exact (kid_in aobjs ks _ tq _ Eq I)).
    destruct (IHa ns a o (ch + quadrant rect c o) ns1 a1 (Some i) tq) as [tq' Et]; auto.
    { constructor; [now apply (Rk (quadrant rect c o))|now apply (nodup_kid aidx ks (quadrant rect c o))|now apply (nodup_kid aobjs ks (quadrant rect c o))]. }
    destruct (lift_kid ns a par i os c r ch ks _ tq o ns1 a1 tq' (swap_remove os k) W Eq Et) as (L1 & L2 & L3 & L4 & L5 & L6).
    rewrite L5 in E. cbn [qparent qchild qobjs qcenter qradius] in E.
    pose proof (swap_remove_perm os k o Eo) as Sp.
    assert (Ef : effect ns a par (QI i os c r ch ks) [] (update ns1 i (QN par (Some ch) (swap_remove os k) c r)) a1 (QI i (swap_remove os k) c r ch (update ks (quadrant rect c o) tq'))).
    { constructor; auto.
      - cbn [aobjs app]. rewrite L6. rewrite <- Permutation_middle. exact (Permutation_app_tail (flat_map aobjs ks) (Permutation_sym Sp)).
      - cbn [app aobjs]. intros p Np. apply (e_frame _ _ _ _ _ _ _ _ Et). rewrite in_app_iff in Np. cbn [app]. intros [<-|Ip]; [tauto|].
        apply Np. right. exact (kid_in aobjs ks _ tq _ Eq Ip).
      - intros Hm j p Hp. apply holds_kid_inv in Hp. destruct Hp as [[-> Ip]|(q1 & t1 & E1 & Hp)].
        + assert (Ipo : In p os) by (apply (Permutation_in p (Permutation_sym Sp)); now right).
          rewrite (e_frame _ _ _ _ _ _ _ _ Et). { apply Hm. apply (holds_own (QI i os c r ch ks)). exact Ipo. }
          cbn [app]. intros [<-|Ip'].
          * pose proof (Permutation_NoDup Sp M1) as Nd. inversion Nd; contradiction.
          * apply (M3 p Ipo). exact (kid_in aobjs ks _ tq _ Eq Ip').
        + destruct (update_nth _ _ _ _ _ _ Eq E1) as [[-> ->]|[N E2]].
          * apply (e_home _ _ _ _ _ _ _ _ Et); [|assumption]. intros j' p' H'. apply Hm. econstructor; eassumption.
          * rewrite (e_frame _ _ _ _ _ _ _ _ Et). { apply Hm. econstructor; eassumption. }
            destruct (holds_objs _ _ _ Hp) as [Ip _]. cbn [app]. intros [<-|Ip']; [apply (M3 o Ioo); now apply (kid_in aobjs ks q1 t1)|].
            apply N. eapply (nodup_kids aobjs ks M2); eassumption.
      - intros V. inversion V as [|? ? ? ? ? ? V1 V2 V3]; subst. constructor.
        + intros q1 t1 p E1 Ip. destruct (update_nth _ _ _ _ _ _ Eq E1) as [[-> ->]|[N E2]]; [|now apply (V1 q1 t1)].
          apply (Permutation_in _ (e_obj _ _ _ _ _ _ _ _ Et)) in Ip. cbn in Ip. destruct Ip as [<-|Ip]; [now apply Hside|now apply (V1 _ tq)].
        + intros q1 t1 E1. destruct (update_nth _ _ _ _ _ _ Eq E1) as [[-> ->]|[N E2]]; [|now apply V2].
          rewrite (e_cen _ _ _ _ _ _ _ _ Et), (e_rad _ _ _ _ _ _ _ _ Et). now apply V2.
        + intros q1 t1 E1. destruct (update_nth _ _ _ _ _ _ Eq E1) as [[-> ->]|[N E2]]; [|now apply (V3 q1)].
          apply (e_inv _ _ _ _ _ _ _ _ Et). now apply (V3 _ tq Eq). }
    destruct (IHl _ _ _ _ _ _ _ _ _ _ _ _ (e_wf _ _ _ _ [] _ _ _ W W3 Ef) E) as [t' Et'].
    exists t'. change (@nil nat) with (@nil nat ++ []). eapply effect_trans; [exact W1|exact Ef|exact Et'].
  Qed.

  Lemma add_effect fuel : add_ok fuel /\ split_ok fuel /\ loop_ok fuel.
  Proof.
    induction fuel as [|fuel (I1 & I2 & I3)].
    - repeat split; intros *; intros; discriminate.
    - split; [|split]; [now apply step_add|now apply step_split|now apply step_loop].
  Qed.
End QtP.
