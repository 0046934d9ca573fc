(** Lemmas for the quadtree properties, continued: what holds after any history of calls. *)
From Coq Require Import ZArith Bool List Permutation Lia.
From Verif Require Import Num ScalarModel Vec2Model KdTreeModel KdTreeProofs QuadTreeModel QuadTreeSpec QuadTreeProofs QuadTreeGrow.
Import ListNotations.
Ltac Zify.zify_post_hook ::= idtac.
Local Open Scope nat_scope.
Arguments inv {T}. Arguments childc {T NT}. Arguments effect {T}.

Lemma forget_in o l p : In p (forget o l) <-> In p l /\ p <> o.
Proof.
  unfold forget. rewrite filter_In. destruct (Nat.eqb_spec p o) as [->|N]; cbn; split; intros [I E]; auto; try discriminate.
Qed.
Lemma forget_nodup o l : NoDup l -> NoDup (forget o l).
Proof. apply NoDup_filter. Qed.
Lemma forget_perm o l l' : NoDup l -> Permutation l (o :: l') -> Permutation (forget o l) l'.
Proof.
  intros N P. pose proof (Permutation_NoDup P N) as N'. inversion N' as [|? ? M1 M2]; subst. apply NoDup_Permutation; [now apply forget_nodup|exact M2|].
  intros p. rewrite forget_in. split.
  - intros [I Np]. apply (Permutation_in _ P) in I. destruct I as [->|I]; [contradiction|exact I].
  - intros I. split; [apply (Permutation_in _ (Permutation_sym P)); now right|]. intros ->. contradiction.
Qed.

Section Hist.
  Context {T : Type} `{NT : Num T}.
  Variable rect : nat -> aabb2 T.
  Implicit Types (ns : list (qnode T)) (c r : v2 T) (ks : list (qtr (T := T))) (tree tq : qtr (T := T)) (b : aabb2 T).
  Variable side : nat -> v2 T -> nat -> Prop.
  Variable link : nat -> v2 T -> v2 T -> v2 T -> v2 T -> Prop.
  (** What holds of the bounding box and the root, of each object and the bounding box; which objects and boxes are considered. *)
  Variable binv : aabb2 T -> v2 T -> v2 T -> Prop.
  Variable inb : aabb2 T -> nat -> Prop.
  Variable okobj : nat -> Prop.
  Variable okbox : v2 T -> v2 T -> Prop.
  Hypothesis Hs : forall c o, straddles rect c o = false -> side (quadrant rect c o) c o.
  Hypothesis Hl : forall q c r, q < 4 -> link q c r (childc q c (muls2 r nhalf)) (muls2 r nhalf).
  Hypothesis Hin : forall b o, okobj o -> growDirection b (rect o) = None -> inb b o.
  Hypothesis HC : forall mn mx, okbox mn mx -> let c := muls2 (add2 mn mx) nhalf in binv (Box2 mn mx) c (sub2 mx c).
  Hypothesis HG : forall b c r o q, binv b c r -> okobj o -> growDirection b (rect o) = Some q ->
    let b' := growBound b q in let c' := muls2 (add2 (min2 b') (max2 b')) nhalf in let r' := sub2 (max2 b') c' in
    binv b' c' r' /\ (forall p, inb b p -> inb b' p) /\ (forall p, inb b p -> side q c' p) /\
    (forall t i, cen t = c -> rad t = r -> inv side link t -> inv side link (reroot t i (childc q c' (muls2 r' nhalf)) (muls2 r' nhalf))).

  Definition Inv b tree : Prop := inv side link tree /\ binv b (cen tree) (rad tree) /\ (forall p, In p (aobjs tree) -> inb b p).

  Lemma grow_lt b (ob : aabb2 T) q : growDirection b ob = Some q -> q < 4.
  Proof. unfold growDirection. repeat match goal with |- context [if ?x then _ else _] => destruct x end; intros E; try discriminate; injection E as <-; lia. Qed.
  Lemma objs_grown n root q tree c r : q < 4 -> aobjs (grown n root q tree c r) = aobjs tree.
  Proof.
    intros Lq. unfold grown. cbn [aobjs map]. assert (Q : q = 0 \/ q = 1 \/ q = 2 \/ q = 3) by lia.
    destruct Q as [->|[->|[->| ->]]]; cbn [flat_map Nat.eqb app aobjs]; rewrite ?app_nil_r; destruct tree; reflexivity.
  Qed.
  Lemma objs_reroot tree i c r : aobjs (reroot tree i c r) = aobjs tree. Proof. destruct tree; reflexivity. Qed.
  Lemma inv_grown b tree o q n root : Inv b tree -> okobj o -> growDirection b (rect o) = Some q ->
    let b' := growBound b q in let c' := muls2 (add2 (min2 b') (max2 b')) nhalf in let r' := sub2 (max2 b') c' in
    Inv b' (grown n root q tree c' r').
  Proof.
    intros (V & B & I) Go Gd. pose proof (grow_lt _ _ _ Gd) as Lq. destruct (HG _ _ _ _ _ B Go Gd) as (H1 & H2 & H3 & H4). cbn zeta in *.
    set (b' := growBound b q) in *. set (c' := muls2 (add2 (min2 b') (max2 b')) nhalf) in *. set (r' := sub2 (max2 b') c') in *.
    split; [|split; [exact H1|]].
    - unfold grown. constructor.
      + intros q1 t1 p E1 Ip. apply grown_kid in E1. destruct E1 as [Lq1 ->]. destruct (Nat.eqb_spec q1 q) as [->|Nq]; [|contradiction].
        rewrite objs_reroot in Ip. apply H3, I, Ip.
      + intros q1 t1 E1. apply grown_kid in E1. destruct E1 as [Lq1 ->]. destruct (q1 =? q); [|now apply Hl].
        replace (cen (reroot tree _ _ _)) with (childc q1 c' (muls2 r' nhalf)) by (destruct tree; reflexivity).
        replace (rad (reroot tree _ _ _)) with (muls2 r' nhalf) by (destruct tree; reflexivity). now apply Hl.
      + intros q1 t1 E1. apply grown_kid in E1. destruct E1 as [Lq1 ->]. destruct (Nat.eqb_spec q1 q) as [->|Nq]; [|constructor]. now apply H4.
    - intros p Ip. rewrite objs_grown in Ip by exact Lq. now apply H2, I.
  Qed.

  Lemma add_hist : forall fuel t a tree o t' a', ok_tree t a tree -> Inv (qbound t) tree -> okobj o -> ~ In o (aobjs tree) ->
    QuadTree_Add rect fuel t a o = QDone (t', a') -> exists tree', ok_tree t' a' tree' /\ Inv (qbound t') tree' /\
      Permutation (aobjs tree') (o :: aobjs tree) /\ (forall p, ~ In p (o :: aobjs tree) -> a' p = a p).
  Proof.
    induction fuel as [|f IH]; intros t a tree o t' a' O V Go No E; cbn [QuadTree_Add] in E;
      (assert (Ln : qnodes t <> []) by (destruct O as [[W1 _ _] Ir _ _ _]; apply rep_root in W1; intros E0; rewrite E0 in W1; destruct (qidx tree); discriminate));
      destruct (qnodes t) as [|n0' ns0] eqn:En; try contradiction; rewrite <- En in *;
      destruct (growDirection (qbound t) (rect o)) as [q|] eqn:Gd.
    - discriminate.
    - apply qbind_done in E. destruct E as ([ns1 a1] & Ea & E). injection E as <- <-. cbn in Ea. discriminate.
    - apply qbind_done in E. destruct E as ([t1 a1] & Eg & E). pose proof (grow_lt _ _ _ Gd) as Lq.
      destruct (grow_ok _ _ _ _ _ _ _ O Lq Eg) as (O1 & Bt & F1). pose proof (inv_grown _ _ _ _ (length (qnodes t)) (qroot t) V Go Gd) as V1. cbn zeta in *.
      rewrite <- Bt in V1 at 1. assert (No1 := No). rewrite <- (objs_grown (length (qnodes t)) (qroot t) q tree (muls2 (add2 (min2 (growBound (qbound t) q)) (max2 (growBound (qbound t) q))) nhalf) (sub2 (max2 (growBound (qbound t) q)) (muls2 (add2 (min2 (growBound (qbound t) q)) (max2 (growBound (qbound t) q))) nhalf)) Lq) in No1.
      destruct (IH _ _ _ _ _ _ O1 V1 Go No1 E) as (tree' & O2 & V2 & P2 & F2). rewrite objs_grown in P2, F2 by exact Lq.
      exists tree'. do 3 (split; [assumption|]). intros p Np. rewrite F2 by exact Np. apply F1. intros I. apply Np. right. destruct tree; cbn in *; [exact I|apply in_or_app; now left].
    - apply qbind_done in E. destruct E as ([ns1 a1] & Ea & E). injection E as <- <-.
      destruct (add_root rect side link Hs Hl _ _ _ _ _ _ _ O No Ea) as (tree' & O' & Et). exists tree'. split; [exact O'|].
      destruct V as (V1 & V2 & V3). split; [split; [|split]|split].
      + now apply (e_inv _ _ _ _ _ _ _ _ _ _ Et).
      + cbn [qbound]. rewrite (e_cen _ _ _ _ _ _ _ _ _ _ Et), (e_rad _ _ _ _ _ _ _ _ _ _ Et). exact V2.
      + cbn [qbound]. intros p Ip. apply (Permutation_in _ (e_obj _ _ _ _ _ _ _ _ _ _ Et)) in Ip. destruct Ip as [<-|Ip]; [now apply Hin|now apply V3].
      + apply (e_obj _ _ _ _ _ _ _ _ _ _ Et).
      + intros p Np. apply (e_frame _ _ _ _ _ _ _ _ _ _ Et). exact Np.
  Qed.
  Lemma grow_nf t a tree b q : ok_tree t a tree -> q < 4 -> GrowImpl t a b q <> QFault.
  Proof.
    intros [[W1 W2 W3] Ir Bl Cv Hm] Lq. unfold GrowImpl. pose proof (rep_root _ _ _ W1) as E. rewrite Ir in E. rewrite E.
    assert (E2 : exists nd, nth_error (qnodes t) (qroot t + q) = Some nd).
    { destruct q; [rewrite Nat.add_0_r; eauto|]. destruct (Bl (S q) ltac:(lia)) as (_ & p0 & c0 & r0 & E0). eauto. }
    destruct E2 as [nd ->]. unfold Allocate. destruct (N.leb _ _); discriminate.
  Qed.
  Lemma add_nf : forall fuel t a tree o, ok_tree t a tree -> ~ In o (aobjs tree) -> QuadTree_Add rect fuel t a o <> QFault.
  Proof.
    induction fuel as [|f IH]; intros t a tree o O No; cbn [QuadTree_Add];
      (assert (Ln : qnodes t <> []) by (destruct O as [[W1 _ _] Ir _ _ _]; apply rep_root in W1; intros E0; rewrite E0 in W1; destruct (qidx tree); discriminate));
      destruct (qnodes t) as [|n0' ns0] eqn:En; try contradiction; rewrite <- En in *;
      destruct (growDirection (qbound t) (rect o)) as [q|] eqn:Gd; try discriminate.
    - pose proof (grow_lt _ _ _ Gd) as Lq. destruct (GrowImpl t a (growBound (qbound t) q) q) as [| | |[t1 a1]] eqn:Eg; cbn [qbind]; try discriminate.
      + exfalso. now apply (grow_nf _ _ _ _ _ O Lq) in Eg.
      + destruct (grow_ok _ _ _ _ _ _ _ O Lq Eg) as (O1 & Bt & F1). apply (IH _ _ _ _ O1). now rewrite objs_grown.
    - destruct (no_fault rect (S f)) as [Na _]. specialize (Na (qnodes t) a o (qroot t) None tree (ot_wf _ _ _ O) (ot_root _ _ _ O) No).
      destruct (addAt rect (S f) (qnodes t) a o (qroot t)) as [| | |[ns1 a1]]; cbn [qbind]; try discriminate. contradiction.
  Qed.

  (** *** Histories *)
  Definition okop (op : qop T) : Prop := match op with OpClear mn mx => okbox mn mx | OpAdd o => okobj o | OpRemove _ => True end.
  Record okstate (s : qt * assocs) (bk : book) : Prop := OkState {
    os_fresh : cleared bk = false -> s = (QuadTree_new, snd s) /\ stored bk = [];
    os_tree : cleared bk = true -> exists tree, ok_tree (fst s) (snd s) tree /\ Inv (qbound (fst s)) tree /\ Permutation (aobjs tree) (stored bk);
    os_none : forall p, ~ In p (stored bk) -> ~ In p (stale bk) -> snd s p = None }.
  Lemma start_ok : okstate qstart (Book false [] []).
  Proof. constructor; cbn; auto. discriminate. Qed.
  Lemma step_ok fuel s bk op s' : okstate s bk -> legal bk op -> okop op -> qstep rect fuel s op = QDone s' -> okstate s' (book_step bk op).
  Proof.
    intros [Of Ot On] L G E. destruct s as [t a]. cbn [fst snd] in *. destruct op as [mn mx|o|o]; cbn [qstep book_step fst snd] in *.
    - injection E as <-. constructor; cbn; [discriminate| |].
      + intros _. exists (QL 0 [] (muls2 (add2 mn mx) nhalf) (sub2 mx (muls2 (add2 mn mx) nhalf))). split; [apply clear_ok|]. split; [|constructor].
        split; [constructor|]. split; [now apply HC|]. intros p [].
      + intros p _ Np. apply On; intros I; apply Np; apply in_or_app; auto.
    - destruct L as [Lc Lo]. destruct (Ot Lc) as (tree & O & V & P). destruct s' as [t' a'].
      assert (No : ~ In o (aobjs tree)) by (intros I; apply Lo; now apply (Permutation_in _ P)).
      destruct (add_hist _ _ _ _ _ _ _ O V G No E) as (tree' & O' & V' & P' & F'). constructor; cbn [cleared stored stale fst snd].
      + rewrite Lc. discriminate.
      + intros _. exists tree'. split; [exact O'|]. split; [exact V'|]. rewrite P'. now constructor.
      + intros p Np Ns. rewrite F'.
        * apply On; [intros I; apply Np; now right|]. intros I. apply Ns. apply forget_in. split; [exact I|]. intros ->. apply Np. now left.
        * intros [<-|I]; apply Np; [now left|right; now apply (Permutation_in _ P)].
    - destruct (in_dec Nat.eq_dec o (stored bk)) as [Io|No].
      + destruct (cleared bk) eqn:Ec.
        * destruct (Ot eq_refl) as (tree & O & (V1 & V2 & V3) & P). assert (It : In o (aobjs tree)) by now apply (Permutation_in _ (Permutation_sym P)).
          destruct (remove_ok _ _ _ _ O It) as (t' & tree' & E' & O' & P' & Er & Eb & Ecn & Erd & Vi). rewrite E' in E. injection E as <-.
          constructor; cbn [cleared stored stale fst snd]; [discriminate| |].
          -- intros _. exists tree'. split; [exact O'|]. split.
             ++ split; [now apply Vi|]. rewrite Eb, Ecn, Erd. split; [exact V2|]. intros p Ip. apply V3. apply (Permutation_in _ (Permutation_sym P')). now right.
             ++ symmetry. apply forget_perm; [apply (Permutation_NoDup P); apply O|]. now rewrite <- P.
          -- intros p Np Ns. unfold set_assoc. destruct (Nat.eqb_spec p o) as [->|Npo]; [reflexivity|]. apply On; [|exact Ns]. intros I. apply Np. now apply forget_in.
        * exfalso. destruct (Of eq_refl) as [_ Es]. rewrite Es in Io. contradiction.
      + unfold QuadTree_Remove in E. rewrite (On o No L) in E. injection E as <-.
        assert (Ef : forget o (stored bk) = stored bk).
        { clear - No. unfold forget. induction (stored bk) as [|x l IH]; [reflexivity|]. cbn. destruct (Nat.eqb_spec x o) as [->|N]; cbn; [exfalso; apply No; now left|].
          f_equal. apply IH. intros I. apply No. now right. }
        constructor; cbn [cleared stored stale fst snd]; rewrite Ef; auto.
  Qed.
  Lemma step_nf fuel s bk op : okstate s bk -> legal bk op -> okop op -> qstep rect fuel s op <> QFault.
  Proof.
    intros [Of Ot On] L G. destruct s as [t a]. cbn [fst snd] in *. destruct op as [mn mx|o|o]; cbn [qstep fst snd]; [discriminate| |].
    - destruct L as [Lc Lo]. destruct (Ot Lc) as (tree & O & V & P). apply (add_nf _ _ _ _ _ O). intros I; apply Lo; now apply (Permutation_in _ P).
    - destruct (in_dec Nat.eq_dec o (stored bk)) as [Io|No].
      + destruct (cleared bk) eqn:Ec.
        * destruct (Ot eq_refl) as (tree & O & _ & P). assert (It : In o (aobjs tree)) by now apply (Permutation_in _ (Permutation_sym P)).
          destruct (remove_ok _ _ _ _ O It) as (t' & tree' & E' & _). rewrite E'. discriminate.
        * exfalso. destruct (Of eq_refl) as [_ Es]. rewrite Es in Io. contradiction.
      + unfold QuadTree_Remove. rewrite (On o No L). discriminate.
  Qed.
  Lemma run_ok fuel : forall ops s bk s', okstate s bk -> legal_from bk ops -> Forall okop ops -> qrun rect fuel s ops = QDone s' ->
    okstate s' (fold_left book_step ops bk).
  Proof.
    induction ops as [|op ops IH]; intros s bk s' O L G E; cbn in *; [injection E as <-; exact O|].
    apply qbind_done in E. destruct E as (s1 & E1 & E). inversion G; subst. destruct L as [L1 L2]. eapply IH; [|exact L2|assumption|exact E].
    eapply step_ok; eassumption.
  Qed.
  Lemma run_nf fuel : forall ops s bk, okstate s bk -> legal_from bk ops -> Forall okop ops -> qrun rect fuel s ops <> QFault.
  Proof.
    induction ops as [|op ops IH]; intros s bk O L G; cbn in *; [discriminate|]. inversion G; subst. destruct L as [L1 L2].
    destruct (qstep rect fuel s op) as [| | |s1] eqn:E1; cbn [qbind]; try discriminate.
    - now apply (step_nf _ _ _ _ O L1 H1) in E1.
    - eapply IH; [|exact L2|assumption]. eapply step_ok; eassumption.
  Qed.

  Lemma all_objs t a tree : ok_tree t a tree -> Permutation (flat_map qobjs (qnodes t)) (aobjs tree).
  Proof.
    intros [[W1 W2 W3] Ir Bl Cv Hm]. rewrite (objs_flat _ _ _ W1).
    assert (E : flat_map qobjs (qnodes t) = flat_map (objs_at (qnodes t)) (seq 0 (length (qnodes t)))).
    { generalize (qnodes t) at 1 2 3. intros l. clear. induction l as [|x l IH] using rev_ind; [reflexivity|].
      rewrite app_length, seq_app, !flat_map_app. cbn. unfold objs_at at 2. rewrite nth_error_app2, Nat.sub_diag by lia. cbn. f_equal.
      rewrite IH. apply flat_map_in. intros i I. apply in_seq in I. unfold objs_at. now rewrite nth_error_app1 by lia. }
    rewrite E. assert (P : Permutation (seq 0 (length (qnodes t))) ([qroot t + 1; qroot t + 2; qroot t + 3] ++ aidx tree)).
    { apply NoDup_Permutation; [apply seq_NoDup| |].
      - apply nodup_app; [repeat constructor; cbn; lia|exact W2|]. intros x I1 I2. cbn in I1.
        destruct (Bl (x - qroot t) ltac:(lia)) as [N _]. apply N. now replace (qroot t + (x - qroot t)) with x by lia.
      - intros x. rewrite in_seq, in_app_iff. split.
        + intros L. destruct (Cv x ltac:(lia)) as [I|I]; [now right|left; cbn; lia].
        + intros [I|I]; [|apply (rep_lt _ _ _ W1) in I; lia]. cbn in I.
          destruct (Bl (x - qroot t) ltac:(lia)) as (_ & p0 & c0 & r0 & E0). replace (qroot t + (x - qroot t)) with x in E0 by lia. apply nth_some_lt in E0. lia. }
    rewrite (Permutation_flat_map (objs_at (qnodes t)) P), flat_map_app.
    replace (flat_map (objs_at (qnodes t)) [qroot t + 1; qroot t + 2; qroot t + 3]) with (@nil nat); [reflexivity|].
    cbn. unfold objs_at. destruct (Bl 1 ltac:(lia)) as (_ & ? & ? & ? & ->). destruct (Bl 2 ltac:(lia)) as (_ & ? & ? & ? & ->). destruct (Bl 3 ltac:(lia)) as (_ & ? & ? & ? & ->). reflexivity.
  Qed.
  Lemma reach_idx ns par tree : qrep ns par tree -> forall j, In j (aidx tree) -> qreach ns (qidx tree) j.
  Proof.
    induction 1 as [par i os c r E|par i os c r ch ks E L Ix Rk IH]; intros j I.
    - destruct I as [<-|[]]. constructor.
    - destruct I as [<-|I]; [constructor|]. apply in_flat_map in I. destruct I as (t & It & I). apply In_nth_error in It. destruct It as [q Eq].
      eapply (qreach_child ns i _ ch q); [exact E|reflexivity| |].
      + rewrite <- L. apply nth_error_Some. rewrite Eq. discriminate.
      + rewrite <- (Ix q t Eq). now apply (IH q t Eq).
  Qed.
End Hist.
