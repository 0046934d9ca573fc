(** Lemmas for the quadtree properties, continued: box queries and colliding pairs. *)
From Coq Require Import ZArith Bool List Permutation Lia.
From Verif Require Import Num ScalarModel Vec2Model KdTreeModel KdTreeSpec KdTreeProofs QuadTreeModel QuadTreeSpec QuadTreeProofs QuadTreeGrow QuadTreeHist.
Import ListNotations.
Ltac Zify.zify_post_hook ::= idtac.
Local Open Scope nat_scope.

(** What the geometry of the tree needs beyond the order: the sign of a difference, for finite numbers on one side. *)
Class SubLaws (T : Type) `{OL : OrdLaws T} : Type := {
  fin : T -> Prop;
  fin_ok : forall x, fin x -> ok x;
  zero_ok : ok n0;
  sub_ok : forall x y, ok x -> fin y -> ok (nsub x y);
  sub_ok' : forall x y, fin x -> ok y -> ok (nsub x y);
  add_ok' : forall x y, ok x -> fin y -> ok (nadd x y);
  sub_pos : forall x y, ok x -> fin y -> nltb n0 (nsub x y) = nltb y x;
  sub_pos' : forall x y, fin x -> ok y -> nltb n0 (nsub x y) = nltb y x;
  half_fin : forall x, fin x -> fin (nmul x nhalf) }.

Section Query.
  Context {T : Type} `{NT : Num T}.
  Variable rect : nat -> aabb2 T.
  Implicit Types (ns : list (qnode T)) (c r : v2 T) (ks : list (qtr (T := T))) (tree tq : qtr (T := T)) (b : aabb2 T).

  Section Visit.
    Variable q : aabb2 T.
    (** Does the query descend into child k of a node with centre c? *)
    Definition enter (c : v2 T) (k : nat) : bool :=
      match k with
      | 0 => nleb (x2 (min2 q)) (x2 c) && nleb (y2 (min2 q)) (y2 c)
      | 1 => nleb (x2 c) (x2 (max2 q)) && nleb (y2 (min2 q)) (y2 c)
      | 2 => nleb (x2 (min2 q)) (x2 c) && nleb (y2 c) (y2 (max2 q))
      | _ => nleb (x2 c) (x2 (max2 q)) && nleb (y2 c) (y2 (max2 q))
      end.
    Definition selfVisit (i : nat) (os : list nat) : list nat := match os with [] => [] | _ => [i] end.
    Fixpoint vis (t : qtr (T := T)) : list nat :=
      match t with
      | QL i os _ _ => selfVisit i os
      | QI i os c _ _ ks => let vs := map vis ks in
          selfVisit i os ++ flat_map (fun k => if enter c k then nth k vs [] else []) [1; 2; 3; 0]
      end.
    Definition below (t : qtr (T := T)) : list qtr :=
      match t with
      | QL _ _ _ _ => []
      | QI _ _ c _ _ ks => flat_map (fun k => if enter c k then match nth_error ks k with Some t => [t] | None => [] end else []) [1; 2; 3; 0]
      end.
    Lemma vis_below t : vis t = selfVisit (qidx t) (own t) ++ flat_map vis (below t).
    Proof.
      destruct t as [i os c r|i os c r ch ks]; [cbn; now rewrite app_nil_r|].
      cbn [vis below qidx own]. f_equal. rewrite flat_map_nest. apply flat_map_in. intros k _. destruct (enter c k); [|reflexivity].
      rewrite (nth_error_nth' (map vis ks) [] (n := k)) at 1 || idtac.
      destruct (nth_error ks k) as [t|] eqn:E.
      - cbn. rewrite app_nil_r. apply nth_error_nth. now apply map_nth_error.
      - apply nth_overflow. rewrite map_length. now apply nth_error_None.
    Qed.
    Lemma below_in t k : In k (below t) -> exists i os c r ch ks j, t = QI i os c r ch ks /\ nth_error ks j = Some k /\ j < 4.
    Proof.
      destruct t as [i os c r|i os c r ch ks]; [intros []|]. intros I. apply in_flat_map in I. destruct I as (j & Ij & I).
      destruct (enter c j); [|contradiction]. destruct (nth_error ks j) as [t|] eqn:E; [|contradiction]. destruct I as [<-|[]].
      do 7 eexists. split; [reflexivity|]. split; [exact E|]. cbn in Ij. lia.
    Qed.
    Lemma below_size ns par t : qrep ns par t -> list_sum (map (fun k => length (aidx k)) (below t)) < length (aidx t).
    Proof.
      destruct 1 as [par i os c r E|par i os c r ch ks E L Ix Rk]; [cbn; lia|].
      destruct ks as [|k0 [|k1 [|k2 [|k3 [|? ?]]]]]; cbn in L; try lia.
      cbn [below flat_map nth_error aidx]. rewrite !app_nil_r. cbn [length]. rewrite !app_length.
      destruct (enter c 1), (enter c 2), (enter c 3), (enter c 0); cbn [app map]; unfold list_sum; cbn [fold_right]; lia.
    Qed.

    Lemma loop_vis ns (stop : list nat -> bool) : forall fuel ts visited, (forall t, In t ts -> exists par, qrep ns par t) ->
      list_sum (map (fun t => length (aidx t)) ts) <= fuel ->
      queryLoop fuel ns q stop (map qidx ts) visited = QDone (until stop (flat_map vis ts) visited).
    Proof.
      induction fuel as [|f IH]; intros ts visited Ht L.
      - destruct ts as [|t ts]; [reflexivity|]. exfalso. cbn [map] in L. unfold list_sum in L. cbn [fold_right] in L. destruct t; cbn in L; lia.
      - destruct ts as [|t ts]; [reflexivity|]. cbn [map queryLoop]. destruct (Ht t (or_introl eq_refl)) as [par W].
        rewrite (rep_root _ _ _ W). cbn [qobjs qchild qcenter flat_map]. rewrite vis_below, <- app_assoc.
        assert (Lb : list_sum (map (fun t => length (aidx t)) (below t ++ ts)) <= f).
        { pose proof (below_size _ _ _ W) as Lb. rewrite map_app, list_sum_app. cbn [map] in L. unfold list_sum in L at 1. cbn [fold_right] in L. fold (list_sum (map (fun t0 : qtr => length (aidx t0)) ts)) in L. lia. }
        assert (Hb : forall t0, In t0 (below t ++ ts) -> exists par, qrep ns par t0).
        { intros t0 I. apply in_app_or in I. destruct I as [I|I]; [|apply Ht; now right]. apply below_in in I.
          destruct I as (i & os & c & r & ch & ks & j & -> & Ej & _). exists (Some i). destruct (rep_kids _ _ _ _ _ _ _ _ W) as (_ & _ & Hk). now apply (Hk j t0). }
        assert (Kids : forall visited1, (match kid t with
            | None => queryLoop f ns q stop (map qidx ts) visited1
            | Some ch =>
              let cx := x2 (cen t) in let cy := y2 (cen t) in
              let s := map qidx ts in
              let s := if (nleb (x2 (min2 q)) cx) && (nleb (y2 (min2 q)) cy) then ch :: s else s in
              let s := if (nleb cx (x2 (max2 q))) && (nleb cy (y2 (max2 q))) then (ch + 3)%nat :: s else s in
              let s := if (nleb (x2 (min2 q)) cx) && (nleb cy (y2 (max2 q))) then (ch + 2)%nat :: s else s in
              let s := if (nleb cx (x2 (max2 q))) && (nleb (y2 (min2 q)) cy) then (ch + 1)%nat :: s else s in
              queryLoop f ns q stop s visited1
            end) = QDone (until stop (flat_map vis (below t) ++ flat_map vis ts) visited1)).
        { intros v1. rewrite <- flat_map_app. rewrite <- (IH _ v1 Hb Lb). destruct t as [i os c r|i os c r ch ks]; cbn [kid below cen]; [reflexivity|].
          cbn zeta. destruct (rep_kids _ _ _ _ _ _ _ _ W) as (Lk & Ix & _). destruct ks as [|k0 [|k1 [|k2 [|k3 [|? ?]]]]]; cbn in Lk; try lia.
          cbn [flat_map nth_error enter app]. rewrite app_nil_r.
          pose proof (Ix 0 k0 eq_refl) as E0. pose proof (Ix 1 k1 eq_refl) as E1. pose proof (Ix 2 k2 eq_refl) as E2. pose proof (Ix 3 k3 eq_refl) as E3.
          rewrite Nat.add_0_r in E0.
          destruct (nleb (x2 (min2 q)) (x2 c)), (nleb (y2 (min2 q)) (y2 c)), (nleb (x2 c) (x2 (max2 q))), (nleb (y2 c) (y2 (max2 q))); cbn [andb app map];
            rewrite ?E0, ?E1, ?E2, ?E3; reflexivity. }
        unfold selfVisit. destruct (own t) as [|o os]; cbn [app until].
        + apply Kids.
        + destruct (stop (qidx t :: visited)); [reflexivity|]. apply Kids.
    Qed.
    Lemma self_in i os j : In j (selfVisit i os) <-> j = i /\ os <> [].
    Proof. destruct os; cbn; split; intros H; try tauto; [destruct H as [->|[]]; split; congruence|left; symmetry; apply H]. Qed.
    Lemma vis_in ns par t : qrep ns par t -> forall j, In j (vis t) -> In j (aidx t) /\ objs_at ns j <> [].
    Proof.
      induction 1 as [par i os c r E|par i os c r ch ks E L Ix Rk IH]; intros j I; rewrite vis_below in I; cbn [qidx own] in I.
      - cbn [below flat_map] in I. rewrite app_nil_r in I. apply self_in in I. destruct I as [-> N]. split; [now left|]. unfold objs_at. now rewrite E.
      - apply in_app_or in I. destruct I as [I|I].
        + apply self_in in I. destruct I as [-> N]. split; [now left|]. unfold objs_at. now rewrite E.
        + apply in_flat_map in I. destruct I as (k & Ik & I). apply below_in in Ik. destruct Ik as (? & ? & ? & ? & ? & ? & m & Eq & Em & _). injection Eq as <- <- <- <- <- <-.
          destruct (IH m k Em j I) as [I1 I2]. split; [right; exact (kid_in aidx ks m k j Em I1)|exact I2].
    Qed.
    Lemma vis_nodup ns par t : qrep ns par t -> NoDup (aidx t) -> NoDup (vis t).
    Proof.
      induction 1 as [par i os c r E|par i os c r ch ks E L Ix Rk IH]; intros Nd; rewrite vis_below; cbn [qidx own].
      - cbn [below flat_map]. rewrite app_nil_r. destruct os; repeat constructor. intros [].
      - cbn in Nd. inversion Nd as [|? ? N1 N2]; subst. apply nodup_app.
        + destruct os; repeat constructor. intros [].
        + assert (G : forall l, NoDup l -> NoDup (flat_map vis (flat_map (fun k => if enter c k then match nth_error ks k with Some t => [t] | None => [] end else []) l))).
          { induction l as [|k l IHl]; intros Nl; cbn; [constructor|]. inversion Nl as [|? ? M1 M2]; subst. rewrite flat_map_app.
            destruct (enter c k); [|now apply IHl]. destruct (nth_error ks k) as [t|] eqn:Ek; [|now apply IHl].
            cbn [flat_map]. rewrite app_nil_r. apply nodup_app; [apply (IH k t Ek); now apply (nodup_kid aidx ks k)|now apply IHl|].
            intros j I1 I2. apply in_flat_map in I2. destruct I2 as (t2 & It2 & I2). apply in_flat_map in It2. destruct It2 as (k2 & Ik2 & It2).
            destruct (enter c k2); [|contradiction]. destruct (nth_error ks k2) as [t2'|] eqn:Ek2; [|contradiction]. destruct It2 as [<-|[]].
            apply M1. replace k with k2; [exact Ik2|]. eapply (nodup_kids aidx ks N2); [exact Ek2|exact Ek| |].
            - apply (vis_in _ _ _ (Rk k2 _ Ek2) j I2).
            - apply (vis_in _ _ _ (Rk k _ Ek) j I1). }
          apply G. repeat constructor; cbn; lia.
        + intros j I1 I2. apply self_in in I1. destruct I1 as [-> _]. apply N1. apply in_flat_map in I2. destruct I2 as (k & Ik & I).
          apply below_in in Ik. destruct Ik as (? & ? & ? & ? & ? & ? & m & Eq & Em & _). injection Eq as <- <- <- <- <- <-.
          apply (kid_in aidx ks m k i Em). now apply (vis_in _ _ _ (Rk m k Em)).
    Qed.
  End Visit.

  (** *** Where a node sits: its depth and the objects of its strict ancestors, nearest first *)
  Inductive anc : qtr (T := T) -> nat -> nat -> list nat -> Prop :=
  | anc_here t : anc t (qidx t) 0 []
  | anc_kid i os c r ch ks q t j d l : nth_error ks q = Some t -> anc t j d l -> anc (QI i os c r ch ks) j (S d) (l ++ os).
  Lemma anc_in t j d l : anc t j d l -> In j (aidx t).
  Proof. induction 1 as [t|i os c r ch ks q t j d l E _ IH]; [apply qidx_in|]. right. exact (kid_in aidx ks q t j E IH). Qed.
  Lemma anc_ex ns par t : qrep ns par t -> forall j, In j (aidx t) -> exists d l, anc t j d l /\ d < length (aidx t).
  Proof.
    induction 1 as [par i os c r E|par i os c r ch ks E L Ix Rk IH]; intros j I.
    - destruct I as [<-|[]]. exists 0, []. split; [apply (anc_here (QL i os c r))|cbn; lia].
    - destruct I as [<-|I]; [exists 0, []; split; [apply (anc_here (QI i os c r ch ks))|cbn; lia]|]. apply in_flat_map in I. destruct I as (t & It & I).
      apply In_nth_error in It. destruct It as [q Eq]. destruct (IH q t Eq j I) as (d & l & A & Ld). exists (S d), (l ++ os).
      split; [econstructor; eassumption|]. cbn. apply -> Nat.succ_lt_mono. eapply Nat.lt_le_trans; [exact Ld|].
      destruct (nth_error_split ks q Eq) as (l1 & l2 & -> & _). rewrite flat_map_app, app_length. cbn. rewrite app_length. lia.
  Qed.
  Lemma anc_fun ns par t : qrep ns par t -> NoDup (aidx t) -> forall j d l d' l', anc t j d l -> anc t j d' l' -> d = d' /\ l = l'.
  Proof.
    induction 1 as [par i os c r E|par i os c r ch ks E L Ix Rk IH]; intros Nd j d l d' l' A A'.
    - inversion A; inversion A'; auto.
    - cbn in Nd. inversion Nd as [|? ? N1 N2]; subst. inversion A as [|? ? ? ? ? ? q t ? d0 l0 Eq A0]; inversion A' as [|? ? ? ? ? ? q' t' ? d0' l0' Eq' A0']; subst; auto.
      + exfalso. apply N1. exact (kid_in aidx ks q' t' _ Eq' (anc_in _ _ _ _ A0')).
      + exfalso. apply N1. exact (kid_in aidx ks q t _ Eq (anc_in _ _ _ _ A0)).
      + assert (q = q') as <- by (eapply (nodup_kids aidx ks N2); [exact Eq|exact Eq'|eapply anc_in; exact A0|eapply anc_in; exact A0']).
        rewrite Eq in Eq'. injection Eq' as <-. destruct (IH q t Eq (nodup_kid aidx ks q t N2 Eq) _ _ _ _ _ A0 A0') as [-> ->]. auto.
  Qed.
  Lemma anc_nodup ns par t : qrep ns par t -> NoDup (aobjs t) -> forall j d l, anc t j d l -> NoDup (objs_at ns j ++ l) /\ incl (objs_at ns j ++ l) (aobjs t).
  Proof.
    induction 1 as [par i os c r E|par i os c r ch ks E L Ix Rk IH]; intros Nd j d l A.
    - inversion A; subst. unfold objs_at. cbn [qidx]. rewrite E. cbn. rewrite app_nil_r. split; [exact Nd|apply incl_refl].
    - cbn in Nd. destruct (NoDup_app_kd _ _ Nd) as (M1 & M2 & M3). inversion A as [|? ? ? ? ? ? q t ? d0 l0 Eq A0]; subst.
      + unfold objs_at. cbn [qidx]. rewrite E. cbn. rewrite app_nil_r. split; [exact M1|]. intros p I. apply in_or_app. now left.
      + destruct (IH q t Eq (nodup_kid aobjs ks q t M2 Eq) _ _ _ A0) as [I1 I2]. rewrite app_assoc. split.
        * apply nodup_app; [exact I1|exact M1|]. intros p P1 P2. apply (M3 p P2). exact (kid_in aobjs ks q t p Eq (I2 p P1)).
        * intros p P. apply in_app_or in P. cbn. apply in_or_app. destruct P as [P|P]; [right; exact (kid_in aobjs ks q t p Eq (I2 p P))|now left].
  Qed.
  Lemma anc_up ns par t : qrep ns par t -> forall j d l p, anc t j d l -> In p l -> exists j' d' l', anc t j' d' l' /\ d' < d /\ In p (objs_at ns j').
  Proof.
    induction 1 as [par i os c r E|par i os c r ch ks E L Ix Rk IH]; intros j d l p A I.
    - inversion A; subst. contradiction.
    - inversion A as [|? ? ? ? ? ? q t ? d0 l0 Eq A0]; subst; [contradiction|]. apply in_app_or in I. destruct I as [I|I].
      + destruct (IH q t Eq _ _ _ _ A0 I) as (j' & d' & l' & A' & Ld & Io). exists j', (S d'), (l' ++ os). split; [econstructor; eassumption|]. split; [lia|exact Io].
      + exists i, 0, []. split; [apply (anc_here (QI i os c r ch ks))|]. split; [lia|]. unfold objs_at. now rewrite E.
  Qed.
  Definition parent_of ns (j : nat) : option nat := match nth_error ns j with Some nd => qparent nd | None => None end.
  Lemma pairsUp_anc ns par t : qrep ns par t -> forall j d l, anc t j d l -> forall o fuel,
    pairsUp rect (d + fuel) ns o (parent_of ns j) = qbind (pairsUp rect fuel ns o par) (fun z => QDone (pairsWith rect o l ++ z)).
  Proof.
    induction 1 as [par i os c r E|par i os c r ch ks E L Ix Rk IH]; intros j d l A o fuel.
    - inversion A; subst. unfold parent_of. cbn [qidx]. rewrite E. cbn. destruct (pairsUp rect fuel ns o par); reflexivity.
    - inversion A as [|? ? ? ? ? ? q t ? d0 l0 Eq A0]; subst.
      + unfold parent_of. cbn [qidx]. rewrite E. cbn. destruct (pairsUp rect fuel ns o par); reflexivity.
      + replace (S d0 + fuel) with (d0 + S fuel) by lia. rewrite (IH q t Eq _ _ _ A0 o (S fuel)). cbn [pairsUp]. rewrite E. cbn [qparent qobjs].
        destruct (pairsUp rect fuel ns o par); cbn [qbind]; try reflexivity.
        unfold pairsWith. rewrite filter_app, map_app, app_assoc. reflexivity.
  Qed.
  (** The pairs reported for the objects [os] of one node whose ancestors hold [l]. *)
  Fixpoint pin (q : aabb2 T) (l os : list nat) : list (nat * nat) :=
    match os with
    | [] => []
    | o :: z => if AABB2D_Intersects q (rect o) then pairsWith rect o z ++ pairsWith rect o l ++ pin q l z else pin q l z
    end.
  Lemma pairsIn_pin ns q t j d l fuel : qrep ns None t -> anc t j d l -> d <= fuel -> forall os,
    pairsIn rect fuel ns q (parent_of ns j) os = QDone (pin q l os).
  Proof.
    intros W A Ld. assert (U : forall o, pairsUp rect fuel ns o (parent_of ns j) = QDone (pairsWith rect o l)).
    { intros o. replace fuel with (d + (fuel - d)) by lia. rewrite (pairsUp_anc _ _ _ W _ _ _ A). destruct (fuel - d); cbn; now rewrite app_nil_r. }
    induction os as [|o os IH]; [reflexivity|]. cbn [pairsIn pin]. destruct (AABB2D_Intersects q (rect o)); [|exact IH].
    rewrite U. cbn [qbind]. rewrite IH. reflexivity.
  Qed.
  (** Position in a list. *)
  Definition before (l : list nat) (o p : nat) : Prop := exists l1 l2, l = l1 ++ o :: l2 /\ In p l2.
  Lemma with_in o l x y : In (x, y) (pairsWith rect o l) <-> x = o /\ In y l /\ AABB2D_Intersects (rect o) (rect y) = true.
  Proof.
    unfold pairsWith. rewrite in_map_iff. setoid_rewrite filter_In. split.
    - intros (z & E & I & F). injection E as <- <-. auto.
    - intros (-> & I & F). exists y. auto.
  Qed.
  Lemma pin_in q l os x y : In (x, y) (pin q l os) <->
    In x os /\ AABB2D_Intersects q (rect x) = true /\ AABB2D_Intersects (rect x) (rect y) = true /\ (before os x y \/ In y l).
  Proof.
    induction os as [|o os IH]; cbn [pin]; [split; [intros []|intros [[] _]]|].
    assert (Bf : before (o :: os) x y <-> (x = o /\ In y os) \/ before os x y).
    { split.
      - intros (l1 & l2 & E & I). destruct l1 as [|z l1]; cbn in E; injection E as -> E; [subst; auto|]. right. exists l1, l2. auto.
      - intros [[-> I]|(l1 & l2 & -> & I)]; [exists [], os; auto|exists (o :: l1), l2; auto]. }
    assert (Bi : before os x y -> In x os) by (intros (l1 & l2 & -> & _); apply in_or_app; right; now left).
    destruct (AABB2D_Intersects q (rect o)) eqn:Q.
    - rewrite !in_app_iff, !with_in, IH, Bf. cbn [In]. split.
      + intros [(-> & I & F)|[(-> & I & F)|(I & F1 & F2 & D)]]; [auto 10|auto 10|tauto].
      + intros ([E|I] & F1 & F2 & [[[E' I']|D]|D]); subst; auto; right; right; tauto.
    - rewrite IH, Bf. cbn [In]. split; [tauto|]. intros ([E|I] & F1 & F2 & D); [subst; congruence|].
      destruct D as [[[E' I']|D]|D]; [subst; congruence|tauto|tauto].
  Qed.
  Lemma with_nodup o l : NoDup l -> NoDup (pairsWith rect o l).
  Proof. intros N. unfold pairsWith. apply FinFun.Injective_map_NoDup; [intros a b E; congruence|]. now apply NoDup_filter. Qed.
  Lemma pin_nodup q l os : NoDup (os ++ l) -> NoDup (pin q l os).
  Proof.
    induction os as [|o os IH]; cbn [pin app]; intros N; [constructor|]. inversion N as [|? ? N1 N2]; subst.
    destruct (AABB2D_Intersects q (rect o)); [|now apply IH]. destruct (NoDup_app_kd _ _ N2) as (M1 & M2 & M3).
    assert (Out : forall p, In p (pairsWith rect o os) \/ In p (pairsWith rect o l) -> In p (pin q l os) -> False).
    { intros [x y] D I. apply pin_in in I. destruct I as [I _]. assert (x = o) by (destruct D as [D|D]; apply with_in in D; apply D). subst.
      apply N1. apply in_or_app. now left. }
    apply nodup_app; [now apply with_nodup| |].
    - apply nodup_app; [now apply with_nodup|now apply IH|]. intros p I1 I2. apply (Out p); auto.
    - intros [x y] I1 I2. apply in_app_or in I2. destruct I2 as [I2|I2]; [|apply (Out (x, y)); auto].
      apply with_in in I1, I2. apply (M3 y); tauto.
  Qed.
  Lemma before_anti l o p : NoDup l -> before l o p -> before l p o -> False.
  Proof.
    intros N (l1 & l2 & -> & I) (m1 & m2 & E & J). revert m1 E. induction l1 as [|x l1 IH]; intros m1 E; cbn in *.
    - inversion N as [|? ? N1 N2]; subst. destruct m1 as [|y m1]; cbn in E; injection E as E1 E2; subst; [contradiction|].
      apply N1. apply in_or_app. right. right. exact J.
    - inversion N as [|? ? N1 N2]; subst. destruct m1 as [|y m1]; cbn in E; injection E as E1 E2; subst; [|eapply IH; eauto].
      apply N1. apply in_or_app. right. right. exact I.
  Qed.
  Lemma before_or l o p : In o l -> In p l -> o <> p -> before l o p \/ before l p o.
  Proof.
    induction l as [|x l IH]; intros I J N; [contradiction|]. destruct I as [->|I], J as [->|J].
    - contradiction.
    - left. exists [], l. auto.
    - right. exists [], l. auto.
    - destruct (IH I J N) as [(l1 & l2 & -> & K)|(l1 & l2 & -> & K)]; [left|right]; exists (x :: l1), l2; auto.
  Qed.
End Query.
