(** Lemmas for the quadtree properties, continued: where objects lie relative to the split lines, and what queries therefore find. *)
From Coq Require Import Reals ZArith Bool List Permutation Lia Lra.
From Verif Require Import Num NumR ScalarModel Vec2Model KdTreeModel KdTreeSpec KdTreeProofs QuadTreeModel QuadTreeSpec QuadTreeProofs QuadTreeGrow QuadTreeHist QuadTreeQuery.
Import ListNotations.
Ltac Zify.zify_post_hook ::= idtac.
Local Open Scope nat_scope.

Section Geo.
  Context {T : Type} `{SL : SubLaws T}.
  Variable rect : nat -> aabb2 T.
  Implicit Types (ns : list (qnode T)) (c r : v2 T) (ks : list (qtr (T := T))) (tree tq : qtr (T := T)) (b : aabb2 T).
  Definition okv c : Prop := ok (x2 c) /\ ok (y2 c).
  Definition finv c : Prop := fin (x2 c) /\ fin (y2 c).
  Definition finb b : Prop := finv (min2 b) /\ finv (max2 b).
  Definition sideOf (q : nat) (c : v2 T) (o : nat) : Prop := finb (rect o) -> okv c ->
    match q with
    | 0 => nleb (x2 (max2 (rect o))) (x2 c) = true /\ nleb (y2 (max2 (rect o))) (y2 c) = true
    | 1 => nleb (x2 c) (x2 (min2 (rect o))) = true /\ nleb (y2 (max2 (rect o))) (y2 c) = true
    | 2 => nleb (x2 (max2 (rect o))) (x2 c) = true /\ nleb (y2 c) (y2 (min2 (rect o))) = true
    | _ => nleb (x2 c) (x2 (min2 (rect o))) = true /\ nleb (y2 c) (y2 (min2 (rect o))) = true
    end.
  Definition linkOf (q : nat) (c r c' r' : v2 T) : Prop := q < 4 /\ c' = childc q c (muls2 r nhalf) /\ r' = muls2 r nhalf.
  Definition inbOf b (o : nat) : Prop := AABB2D_ContainsBox b (rect o) = true.

  Lemma min_pos (x y : T) : nltb n0 x = true -> nltb n0 y = true -> nltb n0 (Min x y) = true.
  Proof. intros. unfold Min. destruct (nleb x y); assumption. Qed.
  Lemma max_pos (x y : T) : ok x -> ok y -> nltb n0 x = true \/ nltb n0 y = true -> nltb n0 (Max x y) = true.
  Proof.
    intros Ox Oy D. unfold Max. destruct (nleb y x) eqn:E.
    - destruct D as [D|D]; [exact D|]. exact (ltb_leb_trans _ _ _ D E).
    - destruct D as [D|D]; [|exact D]. destruct (leb_total x y Ox Oy) as [L|L]; [|congruence]. exact (ltb_leb_trans _ _ _ D L).
  Qed.
  Lemma min_ok (x y : T) : ok x -> ok y -> ok (Min x y).
  Proof. intros. unfold Min. destruct (nleb x y); assumption. Qed.
  Lemma side_quadrant c o : straddles rect c o = false -> sideOf (quadrant rect c o) c o.
  Proof.
    unfold straddles, quadrant, sideOf. intros St [[F1 F2] [F3 F4]] [C1 C2]. cbn zeta in *.
    set (l := nsub (x2 c) (x2 (min2 (rect o)))) in *. set (rr := nsub (x2 (max2 (rect o))) (x2 c)) in *.
    set (tp := nsub (y2 c) (y2 (min2 (rect o)))) in *. set (bt := nsub (y2 (max2 (rect o))) (y2 c)) in *.
    assert (Ol : ok l) by now apply sub_ok. assert (Or : ok rr) by now apply sub_ok'. assert (Ot : ok tp) by now apply sub_ok. assert (Ob : ok bt) by now apply sub_ok'.
    assert (Pl : nltb n0 l = nltb (x2 (min2 (rect o))) (x2 c)) by now apply sub_pos.
    assert (Pr : nltb n0 rr = nltb (x2 c) (x2 (max2 (rect o)))) by now apply sub_pos'.
    assert (Pt : nltb n0 tp = nltb (y2 (min2 (rect o))) (y2 c)) by now apply sub_pos.
    assert (Pb : nltb n0 bt = nltb (y2 c) (y2 (max2 (rect o)))) by now apply sub_pos'.
    assert (X : nltb n0 l = true -> nltb n0 rr = true -> False).
    { intros A B. rewrite (max_pos _ _ (min_ok _ _ Ol Or) (min_ok _ _ Ot Ob)) in St; [discriminate|]. left. now apply min_pos. }
    assert (Y : nltb n0 tp = true -> nltb n0 bt = true -> False).
    { intros A B. rewrite (max_pos _ _ (min_ok _ _ Ol Or) (min_ok _ _ Ot Ob)) in St; [discriminate|]. right. now apply min_pos. }
    assert (L : forall x y : T, ok x -> ok y -> nltb x y = false -> nleb y x = true).
    { intros x y A B E. rewrite (ltb_leb _ _ A B) in E. now destruct (nleb y x). }
    pose proof (fin_ok _ F1). pose proof (fin_ok _ F2). pose proof (fin_ok _ F3). pose proof (fin_ok _ F4).
    destruct (nltb n0 l) eqn:E1, (nltb n0 tp) eqn:E2; (split; apply L; auto).
    all: try (destruct (nltb n0 rr) eqn:E3; [exfalso; now apply X|congruence]).
    all: try (destruct (nltb n0 bt) eqn:E3; [exfalso; now apply Y|congruence]).
    all: congruence.
  Qed.
  Lemma link_child q c r : q < 4 -> linkOf q c r (childc q c (muls2 r nhalf)) (muls2 r nhalf).
  Proof. intros; repeat split; assumption. Qed.
  Lemma dir_in b o : growDirection b (rect o) = None -> inbOf b o.
  Proof.
    unfold growDirection, inbOf, AABB2D_ContainsBox. destruct (nleb (x2 (min2 b)) (x2 (min2 (rect o)))); [|destruct (nltb _ _); discriminate].
    destruct (nleb (x2 (max2 (rect o))) (x2 (max2 b))); [|destruct (nltb _ _); discriminate].
    destruct (nleb (y2 (min2 b)) (y2 (min2 (rect o)))); [|discriminate]. destruct (nleb (y2 (max2 (rect o))) (y2 (max2 b))); [reflexivity|discriminate].
  Qed.
  Lemma childc_ok q c r : okv c -> finv r -> okv (childc q c r).
  Proof.
    intros [C1 C2] [R1 R2]. destruct q as [|[|[|q]]]; cbn; split; first [now apply sub_ok|now apply add_ok'].
  Qed.
  Lemma half_finv r : finv r -> finv (muls2 r nhalf).
  Proof. intros [R1 R2]. split; cbn; now apply half_fin. Qed.
  Lemma link_ok q c r c' r' : linkOf q c r c' r' -> okv c -> finv r -> okv c' /\ finv r'.
  Proof. intros (_ & -> & ->) C0 R0. split; [apply childc_ok; [exact C0|]|]; now apply half_finv. Qed.

  (** *** Completeness of the box query *)
  Lemma enter_side (q : aabb2 T) k c o : AABB2D_Intersects q (rect o) = true -> finb (rect o) -> okv c -> sideOf k c o -> enter q c k = true.
  Proof.
    unfold AABB2D_Intersects. intros I F C0 S. specialize (S F C0). apply andb_prop in I. destruct I as [I I4]. apply andb_prop in I. destruct I as [I I3].
    apply andb_prop in I. destruct I as [I1 I2]. destruct k as [|[|[|k]]]; cbn [enter]; destruct S as [S1 S2]; apply andb_true_intro; split; eapply leb_trans; eassumption.
  Qed.
  Lemma vis_complete (q : aabb2 T) ns par t : qrep ns par t -> inv sideOf linkOf t -> okv (cen t) -> finv (rad t) ->
    forall j p, holds t j p -> finb (rect p) -> AABB2D_Intersects q (rect p) = true -> In j (vis q t).
  Proof.
    induction 1 as [par i os c r E|par i os c r ch ks E L Ix Rk IH]; intros V C0 R0 j p Hp F I; rewrite vis_below; apply in_or_app.
    - left. inversion Hp; subst. apply (proj2 (self_in rect _ _ _)). split; [reflexivity|]. cbn [own]. destruct os; [contradiction|discriminate].
    - apply holds_kid_inv in Hp. destruct Hp as [[-> Io]|(k & t & Ek & Hp)].
      + left. apply (proj2 (self_in rect _ _ _)). split; [reflexivity|]. cbn. destruct os; [contradiction|discriminate].
      + right. inversion V as [|? ? ? ? ? ? V1 V2 V3]; subst. pose proof (V2 k t Ek) as Lk. apply in_flat_map. exists t. split.
        * cbn [below]. apply in_flat_map. exists k. destruct Lk as (Lk & _). split; [cbn; lia|].
          rewrite (enter_side q k c p I F C0); [rewrite Ek; now left|]. apply (V1 k t p Ek). apply (holds_objs _ _ _ Hp).
        * destruct (link_ok _ _ _ _ _ Lk C0 R0) as [C1 R1]. eapply IH; eauto.
  Qed.
  (** Strictly overlapping rectangles. *)
  Definition overlap (a b : aabb2 T) : Prop :=
    nltb (x2 (min2 b)) (x2 (max2 a)) = true /\ nltb (y2 (min2 b)) (y2 (max2 a)) = true /\
    nltb (x2 (min2 a)) (x2 (max2 b)) = true /\ nltb (y2 (min2 a)) (y2 (max2 b)) = true.
  Lemma overlap_sym a b : overlap a b -> overlap b a. Proof. intros (A & B & C0 & D). repeat split; assumption. Qed.
  Lemma overlap_intersects a b : overlap a b -> AABB2D_Intersects a b = true.
  Proof. intros (A & B & C0 & D). unfold AABB2D_Intersects. now rewrite (ltb_true_leb _ _ A), (ltb_true_leb _ _ B), (ltb_true_leb _ _ C0), (ltb_true_leb _ _ D). Qed.
  Lemma sides_apart k k' c o p : k < 4 -> k' < 4 -> sideOf k c o -> sideOf k' c p -> finb (rect o) -> finb (rect p) -> okv c -> overlap (rect o) (rect p) -> k = k'.
  Proof.
    intros Lk Lk' S S' F F' C0 (A & B & A' & B'). specialize (S F C0). specialize (S' F' C0).
    assert (X : forall x y z : T, nleb x y = true -> nleb y z = true -> nltb z x = true -> False).
    { intros x y z E1 E2 E3. pose proof (ltb_leb_trans _ _ _ E3 (leb_trans _ _ _ E1 E2)) as E4. destruct (ltb_ok _ _ E4) as [Oz _].
      rewrite (ltb_leb _ _ Oz Oz) in E4. destruct (leb_total z z Oz Oz) as [E|E]; rewrite E in E4; discriminate. }
    destruct k as [|[|[|[|k]]]], k' as [|[|[|[|k']]]]; try lia; destruct S as [S1 S2], S' as [S1' S2']; try reflexivity; exfalso; eauto using X.
  Qed.
  Lemma overlap_line ns par t : qrep ns par t -> inv sideOf linkOf t -> okv (cen t) -> finv (rad t) ->
    forall j j' o p d l d' l', anc t j d l -> anc t j' d' l' -> In o (objs_at ns j) -> In p (objs_at ns j') ->
    finb (rect o) -> finb (rect p) -> overlap (rect o) (rect p) -> j = j' \/ In p l \/ In o l'.
  Proof.
    induction 1 as [par i os c r E|par i os c r ch ks E L Ix Rk IH]; intros V C0 R0 j j' o p d l d' l' A A' Io Ip Fo Fp Ov.
    - inversion A; inversion A'; subst. now left.
    - inversion A as [|? ? ? ? ? ? k t ? d0 l0 Ek A0]; inversion A' as [|? ? ? ? ? ? k' t' ? d0' l0' Ek' A0']; subst.
      + now left.
      + right; right. apply in_or_app. right. unfold objs_at in Io. cbn [qidx] in Io. now rewrite E in Io.
      + right; left. apply in_or_app. right. unfold objs_at in Ip. cbn [qidx] in Ip. now rewrite E in Ip.
      + inversion V as [|? ? ? ? ? ? V1 V2 V3]; subst. pose proof (V2 k t Ek) as Lk. pose proof (V2 k' t' Ek') as Lk'.
        assert (Ho : In o (aobjs t)). { rewrite (objs_flat _ _ _ (Rk k t Ek)). apply in_flat_map. exists j. split; [eapply anc_in; eassumption|exact Io]. }
        assert (Hp : In p (aobjs t')). { rewrite (objs_flat _ _ _ (Rk k' t' Ek')). apply in_flat_map. exists j'. split; [eapply anc_in; eassumption|exact Ip]. }
        assert (k = k') as <-. { eapply (sides_apart k k' c o p); eauto; [apply Lk|apply Lk']. }
        rewrite Ek in Ek'. injection Ek' as <-. destruct (link_ok _ _ _ _ _ Lk C0 R0) as [C1 R1].
        destruct (IH k t Ek (V3 k t Ek) C1 R1 _ _ _ _ _ _ _ _ A0 A0' Io Ip Fo Fp Ov) as [->|[I|I]]; [now left|right; left|right; right]; apply in_or_app; now left.
  Qed.
End Geo.
