(** Lemmas for the kd-tree properties. *)
From Coq Require Import ZArith Bool List Permutation Lia.
From Verif Require Import Num ScalarModel ScalarProofs ScalarProps Vec3Model GeoTypes AabbModel AabbSpec AabbProofs KdTreeModel KdTreeSpec.
Import ListNotations.
Ltac Zify.zify_post_hook ::= idtac.
Local Open Scope nat_scope.

Section Upd.
  Context {A : Type}.
  Lemma update_length : forall (l : list A) i x, length (update l i x) = length l.
  Proof.
    unfold update. induction l as [|a l IH]; intros i x; [destruct i; reflexivity|]. destruct i; [reflexivity|]. cbn. f_equal. apply IH.
  Qed.
  Lemma update_eq : forall (l : list A) i x, i < length l -> nth_error (update l i x) i = Some x.
  Proof.
    unfold update. induction l as [|a l IH]; cbn; intros i x L; [lia|]. destruct i; [reflexivity|]. cbn. apply IH. lia.
  Qed.
  Lemma update_neq : forall (l : list A) i j x, i <> j -> nth_error (update l i x) j = nth_error l j.
  Proof.
    unfold update. induction l as [|a l IH]; intros i j x N; [destruct i; reflexivity|].
    destruct i, j; cbn; try lia; try reflexivity. apply IH. lia.
  Qed.
  Lemma nodup_app (l m : list A) : NoDup l -> NoDup m -> (forall x, In x l -> In x m -> False) -> NoDup (l ++ m).
  Proof.
    induction l as [|a l IH]; cbn; intros N1 N2 D; [assumption|]. inversion N1; subst. constructor.
    - rewrite in_app_iff. intros [?|?]; [auto|]. apply (D a); auto.
    - apply IH; auto. intros x ? ?. apply (D x); auto.
  Qed.
  Lemma NoDup_app_kd (l m : list A) : NoDup (l ++ m) -> NoDup l /\ NoDup m /\ (forall x, In x l -> In x m -> False).
  Proof.
    induction l as [|a l IH]; cbn; intros N; [repeat split; auto; constructor|]. inversion N as [|? ? N1 N2]; subst.
    destruct (IH N2) as (A1 & A2 & A3). rewrite in_app_iff in N1. repeat split; auto; [constructor; tauto|].
    intros x [<-|?] ?; [tauto|eauto].
  Qed.
  Lemma nth_some_lt (l : list A) i x : nth_error l i = Some x -> i < length l.
  Proof. intros E. apply nth_error_Some. congruence. Qed.
End Upd.

Section KdP.
  Context {T : Type} `{OL : OrdLaws T} `{NI : !NumInf T}.
  Notation node := (node T).

  Inductive tr := TL (i b : nat) (os : list nat) | TN (i ax : nat) (pos : T) (l r : tr).
  Definition idx t := match t with TL i _ _ => i | TN i _ _ _ _ => i end.
  Fixpoint rep (ns : list node) (bs : list (option (list nat))) (t : tr) : Prop :=
    match t with
    | TL i b os => nth_error ns i = Some (NLeaf b) /\ nth_error bs b = Some (Some os)
    | TN i ax pos l r => nth_error ns i = Some (NInner ax pos (idx l)) /\ idx r = S (idx l) /\ rep ns bs l /\ rep ns bs r
    end.
  Fixpoint nodes_of t := match t with TL i _ _ => [i] | TN i _ _ l r => i :: nodes_of l ++ nodes_of r end.
  Fixpoint buckets_of t := match t with TL _ b _ => [b] | TN _ _ _ l r => buckets_of l ++ buckets_of r end.
  Fixpoint objs_of t := match t with TL _ _ os => os | TN _ _ _ l r => objs_of l ++ objs_of r end.
  Fixpoint height t := match t with TL _ _ _ => 1 | TN _ _ _ l r => S (Nat.max (height l) (height r)) end.
  Fixpoint good (P : list nat -> Prop) t := match t with TL _ _ os => P os | TN _ _ _ l r => good P l /\ good P r end.
  Fixpoint sep (objs : list (aabb T)) t : Prop :=
    match t with
    | TL _ _ _ => True
    | TN _ ax pos l r =>
        ax <= 2 /\ ok pos /\
        (forall o O, nth_error objs o = Some O -> In o (objs_of l) -> ~ In o (objs_of r) -> nleb (at3 (maxPoint O) ax) pos = true) /\
        (forall o O, nth_error objs o = Some O -> In o (objs_of r) -> ~ In o (objs_of l) -> nleb pos (at3 (minPoint O) ax) = true) /\
        sep objs l /\ sep objs r
    end.

  Lemma height_pos t : 1 <= height t. Proof. destruct t; cbn; lia. Qed.
  Lemma height_nodes t : height t <= length (nodes_of t).
  Proof. induction t; cbn; [lia|]. rewrite app_length. lia. Qed.
  Lemma idx_in t : In (idx t) (nodes_of t). Proof. destruct t; cbn; auto. Qed.

  (** A subtree is untouched by changes elsewhere. *)
  Lemma rep_frame ns bs ns' bs' t : rep ns bs t ->
    (forall j, In j (nodes_of t) -> nth_error ns' j = nth_error ns j) ->
    (forall j, In j (buckets_of t) -> nth_error bs' j = nth_error bs j) -> rep ns' bs' t.
  Proof.
    revert ns' bs'. induction t as [i b os|i ax pos l IHl r IHr]; cbn; intros ns' bs' Rp Hn Hb.
    - rewrite Hn, Hb by auto. exact Rp.
    - destruct Rp as (E1 & E2 & Rl & Rr). rewrite Hn by auto. repeat split; try assumption.
      + apply IHl; [assumption| |]; intros j Hj; [apply Hn|apply Hb]; rewrite ?in_app_iff; auto.
      + apply IHr; [assumption| |]; intros j Hj; [apply Hn|apply Hb]; rewrite ?in_app_iff; auto.
  Qed.

  (** *** Order facts *)
  Lemma ltb_false_leb x y : ok x -> ok y -> nltb x y = false -> nleb y x = true.
  Proof. intros Ox Oy E. rewrite (ltb_leb x y Ox Oy) in E. now apply negb_false_iff in E. Qed.
  Lemma ltb_true_leb x y : nltb x y = true -> nleb x y = true.
  Proof.
    intros E. destruct (ltb_ok x y E) as [Ox Oy]. rewrite (ltb_leb x y Ox Oy) in E. apply negb_true_iff in E.
    destruct (leb_total x y Ox Oy) as [L|L]; [assumption|congruence].
  Qed.
  Lemma ltb_leb_trans x y z : nltb x y = true -> nleb y z = true -> nltb x z = true.
  Proof.
    intros E L. destruct (ltb_ok x y E) as [Ox Oy]. destruct (leb_ok y z L) as [_ Oz].
    rewrite (ltb_leb x y Ox Oy) in E. rewrite (ltb_leb x z Ox Oz). apply negb_true_iff in E. apply negb_true_iff.
    destruct (nleb z x) eqn:F; [|reflexivity]. now rewrite (leb_trans y z x L F) in E.
  Qed.
  Lemma leb_ltb_trans x y z : nleb x y = true -> nltb y z = true -> nltb x z = true.
  Proof.
    intros L E. destruct (ltb_ok y z E) as [Oy Oz]. destruct (leb_ok x y L) as [Ox _].
    rewrite (ltb_leb y z Oy Oz) in E. rewrite (ltb_leb x z Ox Oz). apply negb_true_iff in E. apply negb_true_iff.
    destruct (nleb z x) eqn:F; [|reflexivity]. now rewrite (leb_trans z x y F L) in E.
  Qed.
  Lemma ltb_irrefl2 x y : nltb x y = true -> nleb y x = true -> False.
  Proof. intros E L. destruct (ltb_ok x y E) as [Ox Oy]. rewrite (ltb_leb x y Ox Oy), L in E. discriminate. Qed.

  (** *** Boxes by axis index *)
  Definition ltA (a b : aabb T) ax := nltb (at3 (minPoint a) ax) (at3 (maxPoint b) ax) = true /\ nltb (at3 (minPoint b) ax) (at3 (maxPoint a) ax) = true.
  Lemma intersects_at (a b : aabb T) : AABB_Intersects a b = true <-> forall ax, ltA a b ax.
  Proof.
    unfold AABB_Intersects, ltA. rewrite !andb_true_iff. split.
    - intros (((((?&?)&?)&?)&?)&?) [|[|ax]]; cbn; auto.
    - intros I. pose proof (I 0). pose proof (I 1). pose proof (I 2). cbn in *. tauto.
  Qed.
  Lemma within_at (a b : aabb T) ax : within a b -> nleb (at3 (minPoint b) ax) (at3 (minPoint a) ax) = true /\ nleb (at3 (maxPoint a) ax) (at3 (maxPoint b) ax) = true.
  Proof. intros ((?&?)&(?&?)&(?&?)). destruct ax as [|[|ax]]; cbn; auto. Qed.
  Lemma okv_at v ax : okv v -> ok (at3 v ax).
  Proof. intros (?&?&?). destruct ax as [|[|ax]]; cbn; auto. Qed.
  Lemma at3_set3_eq (v : vec T) ax x : at3 (set3 v ax x) ax = x.
  Proof. destruct ax as [|[|ax]]; reflexivity. Qed.
  Lemma at3_set3_neq (v : vec T) ax x a : ax <= 2 -> a <= 2 -> ax <> a -> at3 (set3 v ax x) a = at3 v a.
  Proof. destruct ax as [|[|[|ax]]], a as [|[|[|a]]]; intros; try lia; reflexivity. Qed.
  Lemma at3_ge2 (v : vec T) a : 2 <= a -> at3 v a = at3 v 2.
  Proof. destruct a as [|[|a]]; intros; try lia; reflexivity. Qed.
  Lemma maxelem_le (v : vec T) : MaxElementIndex v <= 2.
  Proof. unfold MaxElementIndex. repeat match goal with |- context [if ?c then _ else _] => destruct c end; cbn; lia. Qed.

  (** *** One split *)
  Context (Oinf : ok ninf) (Oninf : ok (nneg ninf)).
  Variable objs : list (aabb T).
  Hypothesis Hobjs : forall o O, nth_error objs o = Some O -> okb O.

  Lemma bucket_aabb os : (forall o, In o os -> o < length objs) -> forall a, okb a ->
    exists A, encloseBucket objs os a = Some A /\ okb A /\ within a A /\ forall o O, In o os -> nth_error objs o = Some O -> within O A.
  Proof.
    induction os as [|o os IH]; intros Hos a Ha; cbn.
    - exists a. repeat split; try apply Ha; try apply within_refl; auto; intros ? ? [].
    - destruct (nth_error objs o) as [O|] eqn:E; [|apply nth_error_None in E; specialize (Hos o (or_introl eq_refl)); lia].
      destruct (Hobjs o O E) as [O1 O2].
      destruct (IH (fun o' Ho' => Hos o' (or_intror Ho')) (AABB_EncloseMinMax a (minPoint O) (maxPoint O)) (encloseMM_okb _ _ _ Ha O1 O2))
        as (A & EA & OA & W & WO).
      exists A. rewrite EA. split; [reflexivity|]. split; [assumption|].
      apply (encloseMM_within a (minPoint O) (maxPoint O) A Ha O1 O2) in W. destruct W as [W1 W2]. split; [assumption|].
      intros o' O' [<-|I] E'; [|now apply (WO o')]. rewrite E in E'. injection E' as <-. destruct O; exact W2.
  Qed.
  Lemma bucket_aabb0 os : (forall o, In o os -> o < length objs) ->
    exists A, BucketAABB objs os = Some A /\ okb A /\ forall o O, In o os -> nth_error objs o = Some O -> within O A.
  Proof.
    intros Hos. destruct (bucket_aabb os Hos AABB_NegativeInfinity) as (A & E & OA & _ & W); [|now exists A].
    repeat split; assumption.
  Qed.

  Definition goesL (lb rb O : aabb T) := AABB_Intersects lb O || (negb (AABB_Intersects lb O) && negb (AABB_Intersects rb O)).
  Definition goesR (lb rb O : aabb T) := AABB_Intersects rb O || (negb (AABB_Intersects lb O) && negb (AABB_Intersects rb O)).
  Lemma sort_spec lb rb os : (forall o, In o os -> o < length objs) ->
    exists ls rs, sortObjects objs lb rb os = Some (ls, rs) /\ length ls <= length os /\ length rs <= length os /\
      (forall o, In o ls <-> In o os /\ exists O, nth_error objs o = Some O /\ goesL lb rb O = true) /\
      (forall o, In o rs <-> In o os /\ exists O, nth_error objs o = Some O /\ goesR lb rb O = true) /\
      (NoDup os -> NoDup ls /\ NoDup rs).
  Proof.
    induction os as [|o os IH]; intros Hos; cbn.
    - exists [], []. repeat split; cbn; try lia; try tauto; constructor.
    - destruct (nth_error objs o) as [O|] eqn:E; [|apply nth_error_None in E; specialize (Hos o (or_introl eq_refl)); lia].
      destruct (IH (fun o' Ho' => Hos o' (or_intror Ho'))) as (ls & rs & -> & L1 & L2 & I1 & I2 & ND).
      eexists _, _. split; [reflexivity|]. fold (goesL lb rb O) (goesR lb rb O).
      split; [destruct (goesL lb rb O); cbn; lia|]. split; [destruct (goesR lb rb O); cbn; lia|].
      split; [|split].
      + intros o'. destruct (goesL lb rb O) eqn:G; cbn; rewrite I1; [|].
        * split; [intros [<-|(?&?&?&?)]; [split; [auto|now exists O]|split; eauto]|intros [[<-|?] X]; auto].
        * split; [intros (?&X); split; auto|intros [[<-|?] X]; [|auto]]. destruct X as (O' & E' & G'). congruence.
      + intros o'. destruct (goesR lb rb O) eqn:G; cbn; rewrite I2; [|].
        * split; [intros [<-|(?&?&?&?)]; [split; [auto|now exists O]|split; eauto]|intros [[<-|?] X]; auto].
        * split; [intros (?&X); split; auto|intros [[<-|?] X]; [|auto]]. destruct X as (O' & E' & G'). congruence.
      + intros N. inversion N as [|? ? N1 N2]; subst. destruct (ND N2) as [ND1 ND2]. split.
        * destruct (goesL lb rb O); [|assumption]. constructor; [|assumption]. rewrite I1. tauto.
        * destruct (goesR lb rb O); [|assumption]. constructor; [|assumption]. rewrite I2. tauto.
  Qed.

  (** What the two half boxes separate. *)
  Lemma goes_sep A O ax pos : within O A -> okb O -> ax <= 2 ->
    let lb := Box (minPoint A) (set3 (maxPoint A) ax pos) in
    let rb := Box (set3 (minPoint A) ax pos) (maxPoint A) in
    (goesL lb rb O = true \/ goesR lb rb O = true) /\
    (goesR lb rb O = false -> nleb (at3 (maxPoint O) ax) pos = true) /\
    (goesL lb rb O = false -> nleb pos (at3 (minPoint O) ax) = true).
  Proof.
    intros W HO Hax lb rb.
    assert (Alt : forall a, a <= 2 -> a <> ax -> ltA lb O a <-> ltA rb O a).
    { intros a Ha N. unfold ltA, lb, rb. cbn [minPoint maxPoint]. rewrite !at3_set3_neq by auto. tauto. }
    assert (Alt' : forall b c : aabb T, ltA b O ax -> (forall a, a <= 2 -> a <> ax -> ltA b O a) -> forall a, ltA b O a).
    { intros b _ H1 H2 a. destruct (le_dec a 2) as [L|L].
      - destruct (Nat.eq_dec a ax) as [->|N]; auto.
      - unfold ltA. rewrite !(at3_ge2 _ a) by lia. destruct (Nat.eq_dec 2 ax) as [<-|N]; [exact H1|apply H2; auto]. }
    destruct (within_at O A ax W) as [W1 W2]. destruct HO as [O1 O2].
    pose proof (okv_at _ ax O1) as Om. pose proof (okv_at _ ax O2) as OM.
    assert (EL : goesL lb rb O = AABB_Intersects lb O || negb (AABB_Intersects rb O)).
    { unfold goesL. destruct (AABB_Intersects lb O), (AABB_Intersects rb O); reflexivity. }
    assert (ER : goesR lb rb O = AABB_Intersects rb O || negb (AABB_Intersects lb O)).
    { unfold goesR. destruct (AABB_Intersects lb O), (AABB_Intersects rb O); reflexivity. }
    rewrite EL, ER. clear EL ER. split; [|split].
    - destruct (AABB_Intersects lb O), (AABB_Intersects rb O); auto.
    - intros F. apply orb_false_iff in F. destruct F as [Fr Fl]. apply negb_false_iff in Fl.
      apply intersects_at with (ax := ax) in Fl as Lax. pose proof (proj1 (intersects_at lb O) Fl) as La.
      unfold ltA, lb in Lax. cbn [minPoint maxPoint] in Lax. rewrite at3_set3_eq in Lax. destruct Lax as [X1 X2].
      destruct (ltb_ok _ _ X2) as [_ Op].
      destruct (nltb pos (at3 (maxPoint O) ax)) eqn:C1; [|now apply ltb_false_leb].
      destruct (nltb (at3 (minPoint O) ax) (at3 (maxPoint A) ax)) eqn:C2.
      + exfalso. assert (AABB_Intersects rb O = true); [|congruence]. apply intersects_at. apply (Alt' rb rb).
        * unfold ltA, rb. cbn [minPoint maxPoint]. rewrite at3_set3_eq. auto.
        * intros a Ha N. apply Alt; auto.
      + apply ltb_false_leb in C2; [|assumption|now destruct (leb_ok _ _ W2)].
        apply leb_trans with (1 := W2). apply leb_trans with (1 := C2). now apply ltb_true_leb.
    - intros F. apply orb_false_iff in F. destruct F as [Fl Fr]. apply negb_false_iff in Fr.
      pose proof (proj1 (intersects_at rb O) Fr) as La. pose proof (La ax) as Lax.
      unfold ltA, rb in Lax. cbn [minPoint maxPoint] in Lax. rewrite at3_set3_eq in Lax. destruct Lax as [X1 X2].
      destruct (ltb_ok _ _ X1) as [Op _].
      destruct (nltb (at3 (minPoint O) ax) pos) eqn:C1; [|now apply ltb_false_leb].
      destruct (nltb (at3 (minPoint A) ax) (at3 (maxPoint O) ax)) eqn:C2.
      + exfalso. assert (AABB_Intersects lb O = true); [|congruence]. apply intersects_at. apply (Alt' lb lb).
        * unfold ltA, lb. cbn [minPoint maxPoint]. rewrite at3_set3_eq. auto.
        * intros a Ha N. apply Alt; auto.
      + apply ltb_false_leb in C2; [|now destruct (leb_ok _ _ W1)|assumption].
        apply leb_trans with (2 := W1). apply leb_trans with (2 := C2). now apply ltb_true_leb.
  Qed.

  (** A list shorter than the one it was filtered from misses an element. *)
  Lemma shorter_misses (ls os : list nat) : NoDup os -> length ls < length os -> exists o, In o os /\ ~ In o ls.
  Proof.
    intros N L. destruct (Forall_Exists_dec (fun o => In o ls) (fun o => in_dec Nat.eq_dec o ls) os) as [F|E].
    - exfalso. assert (length os <= length ls); [|lia]. apply NoDup_incl_length; [assumption|]. exact (proj1 (Forall_forall _ _) F).
    - apply Exists_exists in E. exact E.
  Qed.

  Definition result (i b : nat) (ns : list node) (bs : list (option (list nat))) (d : nat) (os : list nat)
      (ns' : list node) (bs' : list (option (list nat))) (t : tr) : Prop :=
    rep ns' bs' t /\ idx t = i /\ length ns <= length ns' /\ length bs <= length bs' /\
    (forall j, In j (nodes_of t) <-> j = i \/ length ns <= j < length ns') /\ NoDup (nodes_of t) /\
    (forall j, In j (buckets_of t) <-> j = b \/ length bs <= j < length bs') /\ NoDup (buckets_of t) /\
    (forall j, j < length ns -> j <> i -> nth_error ns' j = nth_error ns j) /\
    (forall j, j < length bs -> j <> b -> nth_error bs' j = nth_error bs j) /\
    (forall o, In o (objs_of t) <-> In o os) /\ good (@NoDup nat) t /\ sep objs t /\ height t <= S d.

  Lemma result_leaf i b ns bs d os : nth_error ns i = Some (NLeaf b) -> nth_error bs b = Some (Some os) -> NoDup os ->
    result i b ns bs d os ns bs (TL i b os).
  Proof.
    intros E1 E2 N. pose proof (nth_some_lt _ _ _ E1). pose proof (nth_some_lt _ _ _ E2).
    unfold result. cbn. repeat split; auto; try tauto; try lia; try (intros [?|[]]; auto); try (intros [?|?]; [auto|lia]);
      repeat constructor; intros [].
  Qed.

  Lemma split_spec : forall d i A n ns bs b os,
    nth_error ns i = Some (NLeaf b) -> nth_error bs b = Some (Some os) -> length os = n -> NoDup os ->
    (forall o, In o os -> o < length objs) -> (forall o O, In o os -> nth_error objs o = Some O -> within O A) ->
    exists ns' bs' t, SplitLeaf d objs i A n ns bs = Some (ns', bs') /\ result i b ns bs d os ns' bs' t.
  Proof.
    induction d as [|d IH]; intros i A n ns bs b os Ei Eb Hn ND Hos HA.
    { exists ns, bs, (TL i b os). split; [reflexivity|]. now apply result_leaf. }
    cbn [SplitLeaf]. rewrite Ei, Eb.
    set (ax := MaxElementIndex (AABB_Size A)). set (pos := at3 (AABB_CenterPoint A) ax).
    assert (Hax : ax <= 2) by apply maxelem_le.
    set (lb := Box (minPoint A) (set3 (maxPoint A) ax pos)). set (rb := Box (set3 (minPoint A) ax pos) (maxPoint A)).
    destruct (sort_spec lb rb os Hos) as (ls & rs & -> & L1 & L2 & I1 & I2 & NDs). destruct (NDs ND) as [NDl NDr].
    assert (L1' : (n <? length ls) = false) by (apply Nat.ltb_ge; lia).
    assert (L2' : (n <? length rs) = false) by (apply Nat.ltb_ge; lia).
    rewrite L1', L2'. cbn [orb].
    destruct ((length ls =? n) || (length rs =? n)) eqn:Ab.
    { exists ns, bs, (TL i b os). split; [reflexivity|]. now apply result_leaf. }
    apply orb_false_iff in Ab. destruct Ab as [Al Ar]. apply Nat.eqb_neq in Al, Ar.
    pose proof (nth_some_lt _ _ _ Ei) as Li. pose proof (nth_some_lt _ _ _ Eb) as Lb.
    set (c := length ns) in *.
    assert (Hls : forall o, In o ls -> In o os) by (intros o Ho; now apply I1 in Ho).
    assert (Hrs : forall o, In o rs -> In o os) by (intros o Ho; now apply I2 in Ho).
    destruct (bucket_aabb0 ls) as (LA & -> & OLA & WL); [auto|].
    destruct (bucket_aabb0 rs) as (RA & -> & ORA & WR); [auto|].
    set (ns1 := update ns i (NInner ax pos c) ++ [NLeaf b; NLeaf (length bs)]).
    set (bs1 := update bs b (Some ls) ++ [Some rs]).
    assert (Len1 : length ns1 = c + 2) by (unfold ns1; rewrite app_length, update_length; reflexivity).
    assert (LenB1 : length bs1 = length bs + 1) by (unfold bs1; rewrite app_length, update_length; reflexivity).
    assert (N1i : nth_error ns1 i = Some (NInner ax pos c)).
    { unfold ns1. rewrite nth_error_app1 by (rewrite update_length; assumption). now apply update_eq. }
    assert (N1c : nth_error ns1 c = Some (NLeaf b)).
    { unfold ns1. rewrite nth_error_app2 by (rewrite update_length; lia). rewrite update_length.
      replace (c - length ns) with 0 by (unfold c; lia). reflexivity. }
    assert (N1c' : nth_error ns1 (S c) = Some (NLeaf (length bs))).
    { unfold ns1. rewrite nth_error_app2 by (rewrite update_length; unfold c; lia). rewrite update_length.
      replace (S c - length ns) with 1 by (unfold c; lia). reflexivity. }
    assert (N1o : forall j, j < c -> j <> i -> nth_error ns1 j = nth_error ns j).
    { intros j Hj N. unfold ns1. rewrite nth_error_app1 by (rewrite update_length; assumption). apply update_neq; congruence. }
    assert (B1b : nth_error bs1 b = Some (Some ls)).
    { unfold bs1. rewrite nth_error_app1 by (rewrite update_length; assumption). now apply update_eq. }
    assert (B1r : nth_error bs1 (length bs) = Some (Some rs)).
    { unfold bs1. rewrite nth_error_app2 by (rewrite update_length; lia). rewrite update_length, Nat.sub_diag. reflexivity. }
    assert (B1o : forall j, j < length bs -> j <> b -> nth_error bs1 j = nth_error bs j).
    { intros j Hj N. unfold bs1. rewrite nth_error_app1 by (rewrite update_length; assumption). apply update_neq; congruence. }
    (* left child *)
    assert (HL : exists ns2 bs2 tl, (if 16 <? length ls then SplitLeaf d objs c LA (length ls) ns1 bs1 else Some (ns1, bs1)) = Some (ns2, bs2)
                 /\ result c b ns1 bs1 d ls ns2 bs2 tl).
    { destruct (16 <? length ls).
      - apply (IH c LA (length ls) ns1 bs1 b ls); auto.
      - exists ns1, bs1, (TL c b ls). split; [reflexivity|]. now apply result_leaf. }
    destruct HL as (ns2 & bs2 & tl & -> & RL).
    destruct RL as (Rl & Il & LNl & LBl & Nl & NDNl & Bl & NDBl & Fl & FBl & Ol & Gl & Sl & Hl).
    assert (N2c' : nth_error ns2 (S c) = Some (NLeaf (length bs))) by (rewrite Fl by lia; exact N1c').
    assert (B2r : nth_error bs2 (length bs) = Some (Some rs)) by (rewrite FBl by lia; exact B1r).
    assert (HR : exists ns3 bs3 tr, (if 16 <? length rs then SplitLeaf d objs (S c) RA (length rs) ns2 bs2 else Some (ns2, bs2)) = Some (ns3, bs3)
                 /\ result (S c) (length bs) ns2 bs2 d rs ns3 bs3 tr).
    { destruct (16 <? length rs).
      - apply (IH (S c) RA (length rs) ns2 bs2 (length bs) rs); auto.
      - exists ns2, bs2, (TL (S c) (length bs) rs). split; [reflexivity|]. now apply result_leaf. }
    destruct HR as (ns3 & bs3 & tr & -> & RR).
    destruct RR as (Rr & Ir & LNr & LBr & Nr & NDNr & Br & NDBr & Fr & FBr & Or & Gr & Sr & Hr).
    exists ns3, bs3, (TN i ax pos tl tr). split; [reflexivity|].
    assert (Disj : forall j, In j (nodes_of tl) -> In j (nodes_of tr) -> False).
    { intros j A1 A2. apply Nl in A1. apply Nr in A2. lia. }
    assert (DisjB : forall j, In j (buckets_of tl) -> In j (buckets_of tr) -> False).
    { intros j A1 A2. apply Bl in A1. apply Br in A2. lia. }
    unfold result. cbn [rep idx nodes_of buckets_of objs_of good sep height].
    assert (Msg : ok pos).
    { destruct (shorter_misses ls os ND ltac:(lia)) as (o & Ho & No). specialize (Hos o Ho).
      destruct (nth_error objs o) as [O|] eqn:EO; [|apply nth_error_None in EO; lia].
      assert (GL : goesL lb rb O = false).
      { destruct (goesL lb rb O) eqn:G; [|reflexivity]. exfalso. apply No, I1. split; [assumption|]. now exists O. }
      destruct (goes_sep A O ax pos (HA o O Ho EO) (Hobjs o O EO) Hax) as (_ & _ & S2). apply S2 in GL.
      now destruct (leb_ok _ _ GL). }
    repeat match goal with |- _ /\ _ => split end; try assumption; try lia; auto.
    - rewrite Fr by lia. rewrite Fl by lia. rewrite N1i, Il. reflexivity.
    - apply (rep_frame ns2 bs2); [assumption| |].
      + intros j Hj. apply Nl in Hj. apply Fr; lia.
      + intros j Hj. apply Bl in Hj. apply FBr; lia.
    - intros j. cbn. rewrite in_app_iff, Nl, Nr. lia.
    - constructor.
      + rewrite in_app_iff, Nl, Nr. lia.
      + now apply nodup_app.
    - intros j. rewrite in_app_iff, Bl, Br. lia.
    - now apply nodup_app.
    - intros j Hj N. rewrite Fr, Fl by lia. now apply N1o.
    - intros j Hj N. rewrite FBr, FBl by lia. now apply B1o.
    - intros o. rewrite in_app_iff, Ol, Or. split; [intros [?|?]; auto|].
      intros Ho. specialize (Hos o Ho).
      destruct (nth_error objs o) as [O|] eqn:EO; [|apply nth_error_None in EO; lia].
      destruct (goes_sep A O ax pos (HA o O Ho EO) (Hobjs o O EO) Hax) as ([G|G] & _ & _).
      + left. apply I1. split; [assumption|]. now exists O.
      + right. apply I2. split; [assumption|]. now exists O.
    - intros o O EO Ho No. rewrite Ol in Ho. rewrite Or in No.
      destruct (goes_sep A O ax pos (HA o O (Hls o Ho) EO) (Hobjs o O EO) Hax) as (_ & S1 & _). apply S1.
      fold lb rb. destruct (goesR lb rb O) eqn:G; [|reflexivity]. exfalso. apply No, I2. split; [auto|]. now exists O.
    - intros o O EO Ho No. rewrite Or in Ho. rewrite Ol in No.
      destruct (goes_sep A O ax pos (HA o O (Hrs o Ho) EO) (Hobjs o O EO) Hax) as (_ & _ & S2). apply S2.
      fold lb rb. destruct (goesL lb rb O) eqn:G; [|reflexivity]. exfalso. apply No, I1. split; [auto|]. now exists O.
  Qed.

  (** *** Build *)
  Definition built (k : kd T) (t : tr) : Prop :=
    rep (nodes k) (buckets k) t /\ idx t = 1 /\ nth_error (nodes k) 0 = Some (NLeaf 0) /\
    (forall j, In j (nodes_of t) <-> 1 <= j < length (nodes k)) /\ NoDup (nodes_of t) /\
    (forall j, In j (buckets_of t) <-> 1 <= j < length (buckets k)) /\ NoDup (buckets_of t) /\
    (forall o, In o (objs_of t) <-> o < length objs) /\ good (@NoDup nat) t /\ sep objs t /\ height t <= 30 /\
    (forall o O, nth_error objs o = Some O -> within O (rootAABB k)).
  Lemma build_spec : exists k t, Build objs = Some k /\ built k t.
  Proof.
    unfold Build. set (n := length objs).
    assert (Hos : forall o, In o (seq 0 n) -> o < length objs) by (intros o Ho; apply in_seq in Ho; unfold n in *; lia).
    destruct (bucket_aabb0 (seq 0 n) Hos) as (A & -> & OA & WA).
    destruct (split_spec (maxTreeDepth - 1) 1 A n [NLeaf 0; NLeaf 1] [None; Some (seq 0 n)] 1 (seq 0 n))
      as (ns & bs & t & -> & R); auto using seq_length, seq_NoDup.
    destruct R as (Rt & It & LN & LB & N & NDN & Bk & NDB & F & FB & Os & G & Sp & Ht). cbn [length] in *.
    exists (Kd ns bs A), t. split; [reflexivity|]. unfold built. cbn [nodes buckets rootAABB].
    repeat match goal with |- _ /\ _ => split end; try assumption.
    - rewrite F by lia. reflexivity.
    - intros j. rewrite N. lia.
    - intros j. rewrite Bk. lia.
    - intros o. rewrite Os, in_seq. unfold n. lia.
    - intros o O E. apply (WA o O); [|assumption]. apply in_seq. pose proof (nth_some_lt _ _ _ E). unfold n. lia.
  Qed.

  (** *** Counting *)
  Definition nleaf (ns : list node) := length (filter isLeaf ns).
  Definition ninner (ns : list node) := length (filter (fun n => negb (isLeaf n)) ns).
  Lemma count_partition ns : nleaf ns + ninner ns = length ns.
  Proof. unfold nleaf, ninner. induction ns as [|x ns IH]; cbn; [reflexivity|]. destruct (isLeaf x); cbn; lia. Qed.
  Lemma nleaf_update : forall ns i b ax p c, nth_error ns i = Some (NLeaf b) ->
    S (nleaf (update ns i (NInner ax p c))) = nleaf ns /\ ninner (update ns i (NInner ax p c)) = S (ninner ns).
  Proof.
    unfold nleaf, ninner, update. induction ns as [|x ns IH]; intros i b ax p c E; [destruct i; discriminate|].
    destruct i; cbn in *.
    - injection E as ->. cbn. auto.
    - destruct (IH i b ax p c E) as [E1 E2]. destruct x; cbn; rewrite <- ?E1, ?E2; auto.
  Qed.
  Lemma split_counts : forall d i A n ns bs ns' bs', SplitLeaf d objs i A n ns bs = Some (ns', bs') ->
    nleaf ns' + ninner ns = nleaf ns + ninner ns'.
  Proof.
    induction d as [|d IH]; cbn [SplitLeaf]; intros i A n ns bs ns' bs' E; [injection E as <- <-; reflexivity|].
    destruct (nth_error ns i) as [[b|]|] eqn:Ei; try discriminate.
    destruct (nth_error bs b) as [[os|]|]; try discriminate.
    destruct (sortObjects _ _ _ _) as [[ls rs]|]; try discriminate.
    destruct (_ || _) in E; try discriminate.
    destruct (_ || _) in E; [injection E as <- <-; reflexivity|].
    destruct (BucketAABB objs ls) as [la|]; try discriminate. destruct (BucketAABB objs rs) as [ra|]; try discriminate.
    match type of E with context [update ns i ?x] => set (nd := x) in E end.
    assert (C1 : nleaf (update ns i nd ++ [NLeaf b; NLeaf (length bs)]) + ninner ns = nleaf ns + ninner (update ns i nd ++ [NLeaf b; NLeaf (length bs)])).
    { unfold nleaf, ninner. rewrite !filter_app, !app_length. cbn [filter isLeaf negb length].
      fold (nleaf (update ns i nd)) (ninner (update ns i nd)) (nleaf ns) (ninner ns).
      destruct (nleaf_update ns i b (MaxElementIndex (AABB_Size A)) (at3 (AABB_CenterPoint A) (MaxElementIndex (AABB_Size A))) (length ns) Ei) as [E1 E2].
      fold nd in E1, E2. lia. }
    revert C1 E. generalize (update ns i nd ++ [NLeaf b; NLeaf (length bs)]). intros ns1 C1.
    generalize (update bs b (Some ls) ++ [Some rs]). intros bs1.
    assert (C2 : forall (c : bool) d1 i1 a1 n1 m1 s1 m2 s2, (forall i A n ns bs ns' bs', SplitLeaf d1 objs i A n ns bs = Some (ns', bs') ->
       nleaf ns' + ninner ns = nleaf ns + ninner ns') -> (if c then SplitLeaf d1 objs i1 a1 n1 m1 s1 else Some (m1, s1)) = Some (m2, s2) ->
       nleaf m2 + ninner m1 = nleaf m1 + ninner m2).
    { intros [|] ? ? ? ? ? ? ? ? IHd Q; [eauto|injection Q as <- <-; reflexivity]. }
    match goal with |- context [if ?c then ?e else Some (ns1, bs1)] => destruct (if c then e else Some (ns1, bs1)) as [[ns2 bs2]|] eqn:E2 end;
      [|discriminate]. intros E3. apply C2 in E2; [|exact IH]. apply C2 in E3; [|exact IH]. lia.
  Qed.

  (** *** Paths in a represented tree *)
  Lemma reach_in ns bs t : rep ns bs t -> forall j, reach ns (idx t) j <-> In j (nodes_of t).
  Proof.
    induction t as [i b os|i ax pos l IHl r IHr]; cbn [rep idx nodes_of]; intros Rp j.
    - destruct Rp as [E1 E2]. split.
      + intros Hr. inversion Hr; subst; [now left| |]; congruence.
      + intros [->|[]]. constructor.
    - destruct Rp as (E1 & E2 & Rl & Rr). specialize (IHl Rl). specialize (IHr Rr). split.
      + intros Hr. inversion Hr as [|? ? ? ? ? E|? ? ? ? ? E]; subst; [now left| |]; rewrite E1 in E; injection E as <- <- <-; right;
          rewrite in_app_iff; [left; now apply IHl|right; apply IHr; rewrite E2; assumption].
      + intros [->|I]; [constructor|]. apply in_app_iff in I. destruct I as [I|I].
        * eapply reach_left; [eassumption|]. now apply IHl.
        * eapply reach_right; [eassumption|]. rewrite <- E2. now apply IHr.
  Qed.
  Lemma overlaps_reach ns (q : aabb T) i j : overlaps ns q i j -> reach ns i j.
  Proof. induction 1; econstructor; eassumption. Qed.
  Lemma leaf_of_obj ns bs t o : rep ns bs t -> In o (objs_of t) ->
    exists j b os, reach ns (idx t) j /\ nth_error ns j = Some (NLeaf b) /\ nth_error bs b = Some (Some os) /\ In o os.
  Proof.
    induction t as [i b os|i ax pos l IHl r IHr]; cbn [rep idx objs_of]; intros Rp I.
    - exists i, b, os. repeat split; try tauto. constructor.
    - destruct Rp as (E1 & E2 & Rl & Rr). apply in_app_iff in I. destruct I as [I|I].
      + destruct (IHl Rl I) as (j & b & os & Q & X). exists j, b, os. split; [|exact X]. eapply reach_left; eassumption.
      + destruct (IHr Rr I) as (j & b & os & Q & X). exists j, b, os. split; [|exact X]. eapply reach_right; [eassumption|]. now rewrite <- E2.
  Qed.
  Lemma leaf_in_tree ns bs t P : rep ns bs t -> good P t -> forall j, In j (nodes_of t) -> forall b, nth_error ns j = Some (NLeaf b) ->
    exists os, nth_error bs b = Some (Some os) /\ P os /\ (forall o, In o os -> In o (objs_of t)) /\ In b (buckets_of t).
  Proof.
    induction t as [i b' os|i ax pos l IHl r IHr]; cbn [rep idx objs_of nodes_of good buckets_of]; intros Rp G j I b E.
    - destruct I as [->|[]]. destruct Rp as [E1 E2]. rewrite E in E1. injection E1 as <-. exists os. cbn. auto.
    - destruct Rp as (E1 & E2 & Rl & Rr). destruct G as [Gl Gr]. destruct I as [->|I]; [congruence|]. apply in_app_iff in I. destruct I as [I|I].
      + destruct (IHl Rl Gl j I b E) as (os & ? & ? & S & ?). exists os. rewrite in_app_iff. repeat split; auto. intros o Ho. rewrite in_app_iff. auto.
      + destruct (IHr Rr Gr j I b E) as (os & ? & ? & S & ?). exists os. rewrite in_app_iff. repeat split; auto. intros o Ho. rewrite in_app_iff. auto.
  Qed.
  Lemma bucket_unique ns bs t : rep ns bs t -> NoDup (buckets_of t) -> forall j k b, In j (nodes_of t) -> In k (nodes_of t) ->
    nth_error ns j = Some (NLeaf b) -> nth_error ns k = Some (NLeaf b) -> j = k.
  Proof.
    induction t as [i b' os|i ax pos l IHl r IHr]; cbn [rep nodes_of buckets_of]; intros Rp ND j k b Ij Ik Ej Ek.
    - destruct Ij as [<-|[]], Ik as [<-|[]]. reflexivity.
    - destruct Rp as (E1 & E2 & Rl & Rr).
      assert (B : forall t' x, rep ns bs t' -> In x (nodes_of t') -> nth_error ns x = Some (NLeaf b) -> In b (buckets_of t')).
      { intros t' x R' I' E'. assert (Gt : good (fun _ => True) t') by (clear; induction t'; cbn; auto).
        now destruct (leaf_in_tree ns bs t' (fun _ => True) R' Gt x I' b E') as (? & ? & ? & ? & ?). }
      apply NoDup_app_kd in ND. destruct ND as (N1 & N2 & N3).
      destruct Ij as [<-|Ij]; [congruence|]. destruct Ik as [<-|Ik]; [congruence|]. apply in_app_iff in Ij, Ik.
      destruct Ij as [Ij|Ij], Ik as [Ik|Ik]; eauto; exfalso; eapply N3; eauto.
  Qed.
  Lemma tree_height ns bs t : rep ns bs t -> forall fuel, height t <= fuel -> TreeHeightAt fuel ns (idx t) = Some (height t).
  Proof.
    induction t as [i b' os|i ax pos l IHl r IHr]; cbn [rep idx height]; intros Rp fuel L; (destruct fuel as [|fuel]; [lia|]); cbn [TreeHeightAt].
    - now destruct Rp as [-> _].
    - destruct Rp as (-> & E2 & Rl & Rr). rewrite <- E2, (IHl Rl), (IHr Rr) by lia. reflexivity.
  Qed.

  (** *** The box query *)
  Definition inner t := match t with TL _ _ _ => False | _ => True end.
  Fixpoint ninn t := match t with TL _ _ _ => 0 | TN _ _ _ l r => S (ninn l + ninn r) end.
  Fixpoint fits (ts : list tr) : Prop := match ts with [] => True | t :: r => height t + length r <= 30 /\ fits r end.
  Lemma inner_height t : inner t -> 2 <= height t.
  Proof. destruct t; cbn; [tauto|]. pose proof (height_pos t1). lia. Qed.
  Lemma ninn_nodes t : ninn t <= length (nodes_of t).
  Proof. induction t; cbn; [lia|]. rewrite app_length. lia. Qed.

  Section Loop.
    Variables (ns : list node) (bs : list (option (list nat))) (q : aabb T).
    Definition isleaf j := exists b, nth_error ns j = Some (NLeaf b).
    Definition seen t j := isleaf j /\ overlaps ns q (idx t) j.
    Lemma seen_in t j : rep ns bs t -> seen t j -> In j (nodes_of t).
    Proof. intros Rp [_ O]. apply (reach_in ns bs t Rp). eapply overlaps_reach; eassumption. Qed.
    Lemma seen_leaf i b os j : rep ns bs (TL i b os) -> seen (TL i b os) j <-> j = i.
    Proof.
      intros Rp. split; [intros Sn; apply seen_in in Sn; [|assumption]; destruct Sn as [<-|[]]; reflexivity|].
      intros ->. split; [exists b; apply Rp|constructor].
    Qed.
    Lemma seen_node i ax pos l r j : rep ns bs (TN i ax pos l r) ->
      seen (TN i ax pos l r) j <-> (nleb (at3 (minPoint q) ax) pos = true /\ seen l j) \/ (nleb pos (at3 (maxPoint q) ax) = true /\ seen r j).
    Proof.
      intros (E1 & E2 & Rl & Rr). unfold seen. cbn [idx]. split.
      - intros [[b Lf] O]. inversion O as [|? ? ? ? ? E|? ? ? ? ? E]; subst; [congruence| |]; rewrite E1 in E; injection E as <- <- <-;
          [left|right]; rewrite ?E2; repeat split; auto; now exists b.
      - intros [(C & Lf & O)|(C & Lf & O)]; (split; [assumption|]); [eapply ov_left|eapply ov_right]; eauto. now rewrite <- E2.
    Qed.

    Definition kidpush (c : bool) t := if c then match t with TL _ _ _ => [] | _ => [t] end else [].
    Definition kidseen (c : bool) t := if c then match t with TL i _ _ => [i] | _ => [] end else [].

    Lemma loop_spec : forall fuel ts,
      (forall t, In t ts -> rep ns bs t /\ inner t) -> fits ts -> NoDup (flat_map nodes_of ts) -> list_sum (map ninn ts) <= fuel ->
      exists full, NoDup full /\ (forall j, In j full <-> exists t, In t ts /\ seen t j) /\
        forall stop visited, aabbLoop fuel ns q stop (map idx ts) visited = Done (until stop full visited).
    Proof.
      induction fuel as [|fuel IH]; intros ts Hts Hf ND Hs.
      - destruct ts as [|t ts]; [exists []; split; [constructor|]; split; [intros j; split; [intros []|intros (?&[]&?)]|reflexivity]|].
        exfalso. destruct (Hts t (or_introl eq_refl)) as [_ I]. destruct t; [destruct I|]. cbn in Hs. lia.
      - destruct ts as [|t ts]; [exists []; split; [constructor|]; split; [intros j; split; [intros []|intros (?&[]&?)]|reflexivity]|].
        destruct (Hts t (or_introl eq_refl)) as [Rp I]. destruct t as [|i ax pos l r]; [destruct I|]. clear I.
        pose proof Rp as (E1 & E2 & Rl & Rr).
        set (cl := nleb (at3 (minPoint q) ax) pos). set (cr := nleb pos (at3 (maxPoint q) ax)).
        set (ts1 := kidpush cl l ++ ts). set (ts2 := kidpush cr r ++ ts1).
        cbn [fits] in Hf. destruct Hf as [Hh Hf]. cbn [height] in Hh. cbn [map] in Hs. change (list_sum (ninn (TN i ax pos l r) :: map ninn ts)) with (ninn (TN i ax pos l r) + list_sum (map ninn ts)) in Hs. cbn [ninn] in Hs.
        cbn [flat_map nodes_of] in ND. inversion ND as [|? ? ND1 ND2]; subst.
        rewrite <- app_assoc in ND2. apply NoDup_app_kd in ND2. destruct ND2 as (NDl & ND3 & Dl).
        apply NoDup_app_kd in ND3. destruct ND3 as (NDr & NDt & Dr).
        assert (Len1 : length ts1 <= S (length ts)) by (unfold ts1, kidpush; destruct cl, l; cbn; lia).
        destruct (IH ts2) as (full & NDf & Inf & Run).
        { intros t Ht. unfold ts2, ts1 in Ht. rewrite !in_app_iff in Ht. destruct Ht as [Ht|[Ht|Ht]].
          - unfold kidpush in Ht. destruct cr; [|destruct Ht]. destruct r; [destruct Ht|]. destruct Ht as [<-|[]]. cbn. auto.
          - unfold kidpush in Ht. destruct cl; [|destruct Ht]. destruct l; [destruct Ht|]. destruct Ht as [<-|[]]. cbn. auto.
          - apply Hts. now right. }
        { assert (F1 : fits ts1).
          { unfold ts1, kidpush. destruct cl; [|exact Hf]. destruct l; [exact Hf|]. cbn [fits app]. split; [lia|assumption]. }
          unfold ts2, kidpush. destruct cr; [|exact F1]. destruct r; [exact F1|]. cbn [fits app]. split; [lia|assumption]. }
        { unfold ts2, ts1. rewrite !flat_map_app. apply nodup_app; [| |].
          - unfold kidpush. destruct cr; [|constructor]. destruct r; [constructor|]. cbn [flat_map]. rewrite app_nil_r. assumption.
          - apply nodup_app; [|assumption|].
            + unfold kidpush. destruct cl; [|constructor]. destruct l; [constructor|]. cbn [flat_map]. rewrite app_nil_r. assumption.
            + intros x Hx. assert (In x (nodes_of l)).
              { unfold kidpush in Hx. destruct cl; [|destruct Hx]. destruct l; [destruct Hx|]. cbn [flat_map] in Hx. rewrite app_nil_r in Hx. exact Hx. }
              intros Hy. apply (Dl x); [assumption|]. apply in_app_iff. auto.
          - intros x Hx. assert (Xr : In x (nodes_of r)).
            { unfold kidpush in Hx. destruct cr; [|destruct Hx]. destruct r; [destruct Hx|]. cbn [flat_map] in Hx. rewrite app_nil_r in Hx. exact Hx. }
            intros Hy. apply in_app_iff in Hy. destruct Hy as [Hy|Hy]; [|now apply (Dr x)].
            assert (In x (nodes_of l)).
            { unfold kidpush in Hy. destruct cl; [|destruct Hy]. destruct l; [destruct Hy|]. cbn [flat_map] in Hy. rewrite app_nil_r in Hy. exact Hy. }
            apply (Dl x); [assumption|]. apply in_app_iff. auto. }
        { assert (S1 : list_sum (map ninn ts1) <= ninn l + list_sum (map ninn ts)).
          { unfold ts1. rewrite map_app, list_sum_app. generalize (list_sum (map ninn ts)). intros m. unfold kidpush. destruct cl; [|cbn; lia]. destruct l; cbn; lia. }
          assert (S2 : list_sum (map ninn ts2) <= ninn r + list_sum (map ninn ts1)).
          { unfold ts2. rewrite map_app, list_sum_app. generalize (list_sum (map ninn ts1)). intros m. unfold kidpush. destruct cr; [|cbn; lia]. destruct r; cbn; lia. }
          lia. }
        assert (Sub : forall j, In j full -> In j (flat_map nodes_of ts2)).
        { intros j Hj. apply Inf in Hj. destruct Hj as (t & Ht & Sn). apply in_flat_map. exists t. split; [assumption|].
          apply seen_in; [|assumption]. unfold ts2, ts1 in Ht. rewrite !in_app_iff in Ht. destruct Ht as [Ht|[Ht|Ht]].
          - unfold kidpush in Ht. destruct cr; [|destruct Ht]. destruct r; [destruct Ht|]. destruct Ht as [<-|[]]. assumption.
          - unfold kidpush in Ht. destruct cl; [|destruct Ht]. destruct l; [destruct Ht|]. destruct Ht as [<-|[]]. assumption.
          - apply Hts. now right. }
        assert (K2 : forall c t x, In x (flat_map nodes_of (kidpush c t)) -> In x (nodes_of t) /\ (forall i b os, t <> TL i b os)).
        { intros c t x Hx. unfold kidpush in Hx. destruct c; [|destruct Hx]. destruct t; [destruct Hx|]. cbn [flat_map] in Hx. rewrite app_nil_r in Hx.
          split; [exact Hx|discriminate]. }
        assert (K3 : forall c t x, In x (kidseen c t) -> In x (nodes_of t) /\ exists i b os, t = TL i b os).
        { intros c t x Hx. unfold kidseen in Hx. destruct c; [|destruct Hx]. destruct t as [i' b' os'|]; [|destruct Hx]. cbn. split; [exact Hx|now exists i', b', os']. }
        exists (kidseen cl l ++ kidseen cr r ++ full). split; [|split].
        + apply nodup_app; [| |].
          * unfold kidseen. destruct cl; [|constructor]. destruct l; repeat constructor. intros [].
          * apply nodup_app; [|assumption|].
            -- unfold kidseen. destruct cr; [|constructor]. destruct r; repeat constructor. intros [].
            -- intros x Hx Hy. destruct (K3 _ _ _ Hx) as (X & i' & b' & os' & Er). apply Sub in Hy. unfold ts2, ts1 in Hy. rewrite !flat_map_app, !in_app_iff in Hy.
               destruct Hy as [Hy|[Hy|Hy]].
               ++ apply K2 in Hy. destruct Hy as [_ Hy]. now apply (Hy i' b' os').
               ++ apply K2 in Hy. destruct Hy as [Hy _]. apply (Dl x); [assumption|]. apply in_app_iff. auto.
               ++ now apply (Dr x).
          * intros x Hx Hy. destruct (K3 _ _ _ Hx) as (X & i' & b' & os' & El). apply in_app_iff in Hy. destruct Hy as [Hy|Hy].
            -- destruct (K3 _ _ _ Hy) as (Y & _). apply (Dl x); [assumption|]. apply in_app_iff. auto.
            -- apply Sub in Hy. unfold ts2, ts1 in Hy. rewrite !flat_map_app, !in_app_iff in Hy. destruct Hy as [Hy|[Hy|Hy]].
               ++ apply K2 in Hy. destruct Hy as [Hy _]. apply (Dl x); [assumption|]. apply in_app_iff. auto.
               ++ apply K2 in Hy. destruct Hy as [_ Hy]. now apply (Hy i' b' os').
               ++ apply (Dl x); [assumption|]. apply in_app_iff. auto.
        + intros j.
          assert (Kl : forall c t, rep ns bs t -> (c = true /\ seen t j) <-> In j (kidseen c t) \/ exists t', In t' (kidpush c t) /\ seen t' j).
          { intros c t Rt. unfold kidseen, kidpush. destruct c; [|split; [intros [? _]; discriminate|intros [[]|(?&[]&?)]]].
            destruct t as [i' b' os'|].
            - rewrite (seen_leaf i' b' os' j Rt). cbn. split; [intros [_ ->]; auto|intros [[->|[]]|(?&[]&?)]; auto].
            - cbn. split; [intros [_ Sn]; right; eauto|intros [[]|(t'&[<-|[]]&Sn)]; auto]. }
          rewrite !in_app_iff, Inf. unfold ts2, ts1. split.
          * intros Q.
            assert (Q' : (cl = true /\ seen l j) \/ (cr = true /\ seen r j) \/ exists t, In t ts /\ seen t j).
            { rewrite (Kl cl l Rl), (Kl cr r Rr). destruct Q as [Q|[Q|(t & Ht & Sn)]]; auto.
              rewrite !in_app_iff in Ht. destruct Ht as [Ht|[Ht|Ht]]; [right; left; right; eauto|left; right; eauto|right; right; eauto]. }
            destruct Q' as [Q'|[Q'|(t & Ht & Sn)]]; [| |exists t; split; [now right|assumption]];
              (exists (TN i ax pos l r); split; [now left|]; apply seen_node; [assumption|]; auto).
          * intros (t & [<-|Ht] & Sn).
            -- apply seen_node in Sn; [|assumption]. destruct Sn as [Sn|Sn]; [apply (Kl cl l Rl) in Sn|apply (Kl cr r Rr) in Sn];
                 (destruct Sn as [Sn|(t' & Ht' & Sn)]; [auto|]); right; right; exists t'; rewrite !in_app_iff; auto.
            -- right. right. exists t. rewrite !in_app_iff. auto.
        + intros stop visited. cbn [map idx aabbLoop]. rewrite E1. fold cl cr.
          assert (Lf : (length (map idx ts) <? aabbStackSize) = true).
          { apply Nat.ltb_lt. rewrite map_length. unfold aabbStackSize, maxTreeDepth. lia. }
          assert (Lf1 : (length (map idx ts1) <? aabbStackSize) = true).
          { apply Nat.ltb_lt. rewrite map_length. unfold aabbStackSize, maxTreeDepth. lia. }
          rewrite Lf.
          assert (El : match l with TL _ _ _ => exists b, nth_error ns (idx l) = Some (NLeaf b) | TN _ _ _ _ _ => exists a p c, nth_error ns (idx l) = Some (NInner a p c) end).
          { destruct l as [i' b' os'|i' a' p' l' r']; cbn; [exists b'; apply Rl|eexists _, _, _; apply Rl]. }
          assert (Er : match r with TL _ _ _ => exists b, nth_error ns (S (idx l)) = Some (NLeaf b) | TN _ _ _ _ _ => exists a p c, nth_error ns (S (idx l)) = Some (NInner a p c) end).
          { rewrite <- E2. destruct r as [i' b' os'|i' a' p' l' r']; cbn; [exists b'; apply Rr|eexists _, _, _; apply Rr]. }
          assert (Right : forall vis,
            (if cr then match nth_error ns (S (idx l)) with
              | Some (NLeaf _) => if stop (S (idx l) :: vis) then Done (S (idx l) :: vis) else aabbLoop fuel ns q stop (map idx ts1) (S (idx l) :: vis)
              | Some (NInner _ _ _) => if length (map idx ts1) <? aabbStackSize then aabbLoop fuel ns q stop (S (idx l) :: map idx ts1) vis else Fault
              | None => Fault end
             else aabbLoop fuel ns q stop (map idx ts1) vis) = Done (until stop (kidseen cr r ++ full) vis)).
          { intros vis. unfold ts2 in Run. destruct cr; cbn [kidpush kidseen app] in *.
            - destruct r as [i' b' os'|i' a' p' l' r'].
              + destruct Er as [b ->]. cbn [idx] in E2. rewrite <- E2. cbn [app until]. destruct (stop (i' :: vis)); [reflexivity|]. apply Run.
              + destruct Er as (? & ? & ? & ->). rewrite Lf1. cbn [idx] in E2. rewrite <- E2. apply Run.
            - apply Run. }
          unfold ts1 in *. destruct cl; cbn [kidpush kidseen app] in *.
          * destruct l as [i' b' os'|i' a' p' l' r'].
            -- destruct El as [b ->]. cbn [app until idx] in *. destruct (stop (i' :: visited)); [reflexivity|]. apply Right.
            -- destruct El as (? & ? & ? & ->). cbn [app map idx] in *. apply Right.
          * apply Right.
    Qed.
  End Loop.
End KdP.
