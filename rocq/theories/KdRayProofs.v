(** Safety of the kd-tree ray query: lemmas. *)
From Coq Require Import ZArith Bool List Lia.
From Verif Require Import Num ScalarModel Vec3Model GeoTypes AabbModel AabbSpec KdTreeModel KdTreeSpec KdTreeProofs.
Import ListNotations.
Ltac Zify.zify_post_hook ::= idtac.
Local Open Scope nat_scope.

Section Ray.
  Context {T : Type} `{OL : OrdLaws T} `{NI : !NumInf T}.
  Variables (ns : list (node T)) (bs : list (option (list nat))) (r : ray T).
  Notation stackElem := (stackElem T).
  Notation tr := (@tr T).

  (** The far children waiting on the traversal stack, nearest first. *)
  Inductive chain (stack : list stackElem) : nat -> list tr -> Prop :=
  | chain_end s : nth_error stack 1 = Some s -> snode s = None -> chain stack 1 []
  | chain_cons e s t ts : nth_error stack e = Some s -> snode s = Some (idx t) -> sprev s < e -> e <= sprev s + 2 ->
      chain stack (sprev s) ts -> chain stack e (t :: ts).
  Lemma chain_bound stack e ts : chain stack e ts -> 1 <= e <= 1 + 2 * length ts.
  Proof. induction 1; cbn; lia. Qed.
  Lemma chain_update stack e ts i x : chain stack e ts -> e < i -> chain (update stack i x) e ts.
  Proof.
    induction 1 as [s E N|e s t ts E N L1 L2 C IH]; intros Li.
    - apply (chain_end _ s); [|assumption]. rewrite update_neq by lia. assumption.
    - apply (chain_cons _ e s); try assumption; [rewrite update_neq by lia; assumption|]. apply IH. lia.
  Qed.

  Definition pending ts := flat_map (@nodes_of T) ts.
  Lemma descend_spec : forall t ts fuel entry exit stack,
    rep ns bs t -> (forall t', In t' ts -> rep ns bs t') -> height t + length ts <= 30 -> fits ts -> chain stack exit ts ->
    NoDup (nodes_of t ++ pending ts) -> height t <= fuel -> entry < 100 -> length stack = 100 ->
    exists leaf ts' exit' stack', rayDescend fuel ns r (idx t) entry exit stack = Some (Some (leaf, exit', stack')) /\
      isleaf ns leaf /\ In leaf (nodes_of t) /\ (forall t', In t' ts' -> rep ns bs t') /\ fits ts' /\ chain stack' exit' ts' /\ NoDup (leaf :: pending ts') /\
      incl (leaf :: pending ts') (nodes_of t ++ pending ts) /\ length stack' = 100 /\ length ts' <= 30.
  Proof.
    induction t as [i b os|i ax pos l IHl rr IHr]; intros ts fuel entry exit stack Rp Rts Hh Hf Ch ND Hfuel Hen Hlen;
      (destruct fuel as [|fuel]; [cbn in Hfuel; lia|]); cbn [rayDescend idx].
    - destruct Rp as [E1 E2]. rewrite E1. exists i, ts, exit, stack. cbn [nodes_of app] in ND.
      repeat split; auto; [now exists b|now left|intros x Hx; exact Hx|cbn in Hh; lia].
    - destruct Rp as (E1 & E2 & Rl & Rr). rewrite E1. cbn [height] in Hh, Hfuel.
      pose proof (chain_bound _ _ _ Ch) as Hex.
      destruct (nth_error stack entry) as [en|] eqn:Een; [|apply nth_error_None in Een; lia].
      destruct (nth_error stack exit) as [exi|] eqn:Eex; [|apply nth_error_None in Eex; lia].
      cbn [nodes_of] in ND. cbn [app] in ND. inversion ND as [|? ? ND1 ND2]; subst. rewrite <- app_assoc in ND2.
      destruct (NoDup_app_kd _ _ ND2) as (NDl & NDrt & Dl). destruct (NoDup_app_kd _ _ NDrt) as (NDr & NDt & Dr).
      (* one child only *)
      assert (GoL : exists leaf ts' exit' stack', rayDescend fuel ns r (idx l) entry exit stack = Some (Some (leaf, exit', stack')) /\
          isleaf ns leaf /\ In leaf (nodes_of (TN i ax pos l rr)) /\ (forall t', In t' ts' -> rep ns bs t') /\ fits ts' /\ chain stack' exit' ts' /\ NoDup (leaf :: pending ts') /\
          incl (leaf :: pending ts') (nodes_of (TN i ax pos l rr) ++ pending ts) /\ length stack' = 100 /\ length ts' <= 30).
      { destruct (IHl ts fuel entry exit stack) as (leaf & ts' & exit' & stack' & -> & A1 & A2 & A3 & A4 & A5 & A6 & A7 & A8); auto; try lia.
        { apply nodup_app; auto. intros x X Y. apply (Dl x); [assumption|]. apply in_app_iff. auto. }
        exists leaf, ts', exit', stack'. split; [reflexivity|]. split; [assumption|]. split; [cbn; rewrite in_app_iff; auto|].
        repeat (split; [assumption|]). split; [|assumption]. intros x Hx. apply A7 in Hx. cbn. rewrite !in_app_iff in *. tauto. }
      assert (GoR : exists leaf ts' exit' stack', rayDescend fuel ns r (S (idx l)) entry exit stack = Some (Some (leaf, exit', stack')) /\
          isleaf ns leaf /\ In leaf (nodes_of (TN i ax pos l rr)) /\ (forall t', In t' ts' -> rep ns bs t') /\ fits ts' /\ chain stack' exit' ts' /\ NoDup (leaf :: pending ts') /\
          incl (leaf :: pending ts') (nodes_of (TN i ax pos l rr) ++ pending ts) /\ length stack' = 100 /\ length ts' <= 30).
      { rewrite <- E2. destruct (IHr ts fuel entry exit stack) as (leaf & ts' & exit' & stack' & -> & A1 & A2 & A3 & A4 & A5 & A6 & A7 & A8); auto; try lia.
        exists leaf, ts', exit', stack'. split; [reflexivity|]. split; [assumption|]. split; [cbn; rewrite in_app_iff; auto|].
        repeat (split; [assumption|]). split; [|assumption]. intros x Hx. apply A7 in Hx. cbn. rewrite !in_app_iff in *. tauto. }
      (* both children *)
      set (e1 := S exit). set (e2 := if e1 =? entry then S e1 else e1).
      assert (He2 : exit < e2 <= exit + 2 /\ e2 < rayStackSize /\ e2 <> entry).
      { unfold e2, e1, rayStackSize. destruct (Nat.eqb_spec (S exit) entry); pose proof (height_pos l); lia. }
      destruct He2 as (He2 & He2' & He2n). apply Nat.ltb_lt in He2' as Hb. rewrite Hb.
      assert (Ch2 : forall far t p, chain (update stack e2 (SE (Some (idx far)) t p exit)) e2 (far :: ts)).
      { intros far t p. apply (chain_cons _ _ (SE (Some (idx far)) t p exit)); cbn [snode sprev]; try lia; try reflexivity.
        - apply update_eq. rewrite Hlen. unfold rayStackSize in He2'. exact He2'.
        - apply chain_update; [assumption|lia]. }
      match goal with |- context [SE (Some (S (idx l))) ?t ?p _] => set (tt := t); set (pp := p) end.
      assert (PushL : exists leaf ts' exit' stack', rayDescend fuel ns r (idx l) entry e2 (update stack e2 (SE (Some (S (idx l))) tt pp exit)) = Some (Some (leaf, exit', stack')) /\
          isleaf ns leaf /\ In leaf (nodes_of (TN i ax pos l rr)) /\ (forall t', In t' ts' -> rep ns bs t') /\ fits ts' /\ chain stack' exit' ts' /\ NoDup (leaf :: pending ts') /\
          incl (leaf :: pending ts') (nodes_of (TN i ax pos l rr) ++ pending ts) /\ length stack' = 100 /\ length ts' <= 30).
      { rewrite <- E2. destruct (IHl (rr :: ts) fuel entry e2 (update stack e2 (SE (Some (idx rr)) tt pp exit)))
          as (leaf & ts' & exit' & stack' & -> & A1 & A2 & A3 & A4 & A5 & A6 & A7 & A8); auto; try (cbn; lia).
        - intros t' [<-|Ht']; auto.
        - cbn [fits]. split; [lia|assumption].
        - rewrite update_length. assumption.
        - exists leaf, ts', exit', stack'. split; [reflexivity|]. split; [assumption|]. split; [cbn; rewrite in_app_iff; auto|].
          repeat (split; [assumption|]). split; [|assumption]. intros x Hx. apply A7 in Hx. cbn in Hx |- *. rewrite !in_app_iff in *. tauto. }
      assert (PushR : exists leaf ts' exit' stack', rayDescend fuel ns r (S (idx l)) entry e2 (update stack e2 (SE (Some (idx l)) tt pp exit)) = Some (Some (leaf, exit', stack')) /\
          isleaf ns leaf /\ In leaf (nodes_of (TN i ax pos l rr)) /\ (forall t', In t' ts' -> rep ns bs t') /\ fits ts' /\ chain stack' exit' ts' /\ NoDup (leaf :: pending ts') /\
          incl (leaf :: pending ts') (nodes_of (TN i ax pos l rr) ++ pending ts) /\ length stack' = 100 /\ length ts' <= 30).
      { rewrite <- E2. destruct (IHr (l :: ts) fuel entry e2 (update stack e2 (SE (Some (idx l)) tt pp exit)))
          as (leaf & ts' & exit' & stack' & -> & A1 & A2 & A3 & A4 & A5 & A6 & A7 & A8); auto; try (cbn; lia).
        - intros t' [<-|Ht']; auto.
        - cbn [fits]. split; [lia|assumption].
        - cbn [pending flat_map]. apply nodup_app; [assumption| |].
          + apply nodup_app; auto. intros x X Y. apply (Dl x); [assumption|]. apply in_app_iff. auto.
          + intros x X Y. apply in_app_iff in Y. destruct Y as [Y|Y]; [|now apply (Dr x)]. apply (Dl x); [assumption|]. apply in_app_iff. auto.
        - rewrite update_length. assumption.
        - exists leaf, ts', exit', stack'. split; [reflexivity|]. split; [assumption|]. split; [cbn; rewrite in_app_iff; auto|].
          repeat (split; [assumption|]). split; [|assumption]. intros x Hx. apply A7 in Hx. cbn in Hx |- *. rewrite !in_app_iff in *. tauto. }
      destruct (nleb (at3 (sp en) ax) pos).
      + destruct (nleb (at3 (sp exi) ax) pos); [exact GoL|]. destruct (EqualAbs _ _ _); [exact GoR|exact PushL].
      + destruct (nltb pos (at3 (sp exi) ax)); [exact GoR|exact PushR].
  Qed.

  Definition leaf_of (x : nat * T * T) : nat := fst (fst x).
  Lemma ray_loop_spec : forall fuel t ts entry exit stack,
    rep ns bs t -> (forall t', In t' ts -> rep ns bs t') -> height t + length ts <= 30 -> fits ts -> chain stack exit ts ->
    NoDup (nodes_of t ++ pending ts) -> (forall j, In j (nodes_of t ++ pending ts) -> j < length ns) ->
    length (nodes_of t ++ pending ts) <= fuel -> entry < 100 -> length stack = 100 ->
    exists full, (forall stop visited, rayLoop fuel ns r stop (Some (idx t)) entry exit stack visited = Done (until stop full visited)) /\
      NoDup (map leaf_of full) /\ forall x, In x full -> isleaf ns (leaf_of x) /\ In (leaf_of x) (nodes_of t ++ pending ts).
  Proof.
    induction fuel as [|fuel IH]; intros t ts entry exit stack Rp Rts Hh Hf Ch ND Hin Hfuel Hen Hlen.
    { exfalso. rewrite app_length in Hfuel. pose proof (height_nodes t). pose proof (height_pos t). lia. }
    cbn [rayLoop].
    assert (Hfu : height t <= length ns).
    { apply Nat.le_trans with (1 := height_nodes t). rewrite <- (seq_length (length ns) 0). apply NoDup_incl_length.
      - now destruct (NoDup_app_kd _ _ ND).
      - intros x Hx. apply in_seq. specialize (Hin x). rewrite in_app_iff in Hin. specialize (Hin (or_introl Hx)). lia. }
    destruct (descend_spec t ts (length ns) entry exit stack Rp Rts Hh Hf Ch ND Hfu Hen Hlen)
      as (leaf & ts' & exit' & stack' & -> & A1 & A2 & A3 & A4 & A5 & A6 & A7 & A8 & A9).
    pose proof (chain_bound _ _ _ A5) as Hb.
    destruct (nth_error stack' entry) as [en|] eqn:Een; [|apply nth_error_None in Een; lia].
    destruct (nth_error stack' exit') as [exi|] eqn:Eex; [|apply nth_error_None in Eex; lia].
    assert (Hle : length (leaf :: pending ts') <= S fuel).
    { apply Nat.le_trans with (2 := Hfuel). now apply NoDup_incl_length. }
    cbn [length] in Hle. inversion A6 as [|? ? Nl NDp]; subst.
    inversion A5 as [s Es En|e s t1 ts1 Es En L1 L2 C1]; subst.
    - rewrite Eex in Es. injection Es as ->. rewrite En.
      exists [(leaf, st en, st s)]. split; [|split].
      + intros stop visited. cbn [until]. destruct (stop _); [reflexivity|]. destruct fuel; reflexivity.
      + cbn. repeat constructor. intros [].
      + intros x [<-|[]]. split; [assumption|]. apply A7. now left.
    - rewrite Eex in Es. injection Es as ->. rewrite En. cbn [fits] in A4. destruct A4 as [F1 F2].
      cbn [pending flat_map] in NDp, Hle. fold (pending ts1) in NDp, Hle.
      destruct (IH t1 ts1 exit' (sprev s) stack') as (full & Run & NDf & Inf); auto.
      + apply A3. now left.
      + intros t' Ht'. apply A3. now right.
      + intros j Hj. apply Hin, A7. right. cbn [pending flat_map]. fold (pending ts1). exact Hj.
      + lia.
      + cbn in Hb. lia.
      + exists ((leaf, st en, st s) :: full). split; [|split].
        * intros stop visited. cbn [until]. destruct (stop _); [reflexivity|]. apply Run.
        * cbn [map leaf_of fst]. constructor; [|assumption]. intros I. apply in_map_iff in I. destruct I as (x & E & I).
          apply Inf in I. destruct I as [_ I]. change (fst (fst x)) with (leaf_of x) in E. rewrite E in I.
          apply Nl. cbn [pending flat_map]. fold (pending ts1). exact I.
        * intros x [<-|I]; [split; [assumption|apply A7; now left]|]. apply Inf in I. destruct I as [I1 I2]. split; [assumption|].
          apply A7. right. cbn [pending flat_map]. fold (pending ts1). exact I2.
  Qed.
End Ray.
