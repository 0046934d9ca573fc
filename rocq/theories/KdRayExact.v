(** Completeness of the kd-tree ray query in exact arithmetic: lemmas. *)
From Coq Require Import Reals Lra ZArith Bool List Lia.
From Verif Require Import Num NumR XNum ScalarModel Vec3Model GeoTypes AabbModel AabbSpec KdTreeModel KdTreeSpec KdTreeProofs KdRayProofs.
Import ListNotations.
Ltac Zify.zify_post_hook ::= idtac.
Local Open Scope R_scope.

Definition xv (v : vec R) : vec xr := V3 (X (vx v)) (X (vy v)) (X (vz v)).
Definition xbox (b : aabb R) : aabb xr := Box (xv (minPoint b)) (xv (maxPoint b)).
Definition xray (r : ray R) : ray xr := Ry (xv (rpos r)) (xv (rdir r)).
Lemma at3_xv v ax : at3 (xv v) ax = X (at3 v ax).
Proof. destruct ax as [|[|ax]]; reflexivity. Qed.

Section Exact.
  Variables (ns : list (node xr)) (bs : list (option (list nat))) (objs : list (aabb xr)) (r : ray R).
  Notation tr := (@tr xr).
  Notation p ax := (at3 (rpos r) ax).
  Notation d ax := (at3 (rdir r) ax).
  Definition inner_at n ax s := exists c, nth_error ns n = Some (NInner ax (X s) c).
  (** The parameter at which the ray crosses a split plane. *)
  Definition crossing ax s : R := (s - p ax) / d ax.
  Hypothesis Hfin : forall n ax pos c, nth_error ns n = Some (NInner ax pos c) -> exists s, pos = X s.
  Hypothesis Hd : forall ax, d ax <> 0.
  Hypothesis HZ1 : forall n ax s m ax' s', inner_at n ax s -> inner_at m ax' s' ->
    ~ (s < p ax + crossing ax' s' * d ax < s + 1/10000).
  Variables (o : nat) (O : aabb R) (t0 : R).
  Hypothesis HO : nth_error objs o = Some (xbox O).
  Notation q ax := (p ax + t0 * d ax).
  Hypothesis Hin : forall ax, at3 (minPoint O) ax <= q ax <= at3 (maxPoint O) ax.
  Hypothesis Hgen : forall n ax s, inner_at n ax s -> q ax = s ->
    at3 (minPoint O) ax < s < at3 (maxPoint O) ax \/ (0 < t0 /\ forall m ax' s', inner_at m ax' s' -> m <> n -> q ax' <> s').

  Definition coord (tau : xr) ax : xr :=
    match tau with X t => X (p ax + t * d ax) | XP => if Rlt_dec 0 (d ax) then XP else XM | _ => XNaN end.
  Definition time (tau : xr) : Prop := match tau with X _ | XP => True | _ => False end.
  Definition elem_ok (e : stackElem xr) tau : Prop := st e = tau /\ time tau /\ forall ax, at3 (sp e) ax = coord tau ax.

  Lemma cross_pos ax s t : 0 < d ax -> (p ax + t * d ax <= s <-> t <= crossing ax s).
  Proof.
    intros D. unfold crossing. split; intros H.
    - apply Rmult_le_reg_r with (1 := D). replace ((s - p ax) / d ax * d ax) with (s - p ax) by (field; lra). lra.
    - apply Rmult_le_compat_r with (r := d ax) in H; [|lra]. replace ((s - p ax) / d ax * d ax) with (s - p ax) in H by (field; lra). lra.
  Qed.
  Lemma cross_neg ax s t : d ax < 0 -> (p ax + t * d ax <= s <-> crossing ax s <= t).
  Proof.
    intros D. unfold crossing.
    assert (E : (s - p ax) / d ax * d ax = s - p ax) by (field; lra). split; intros H; nra.
  Qed.
  Lemma coord_le_pos ax s tau : 0 < d ax -> time tau -> (xleb (coord tau ax) (X s) = true <-> xle tau (X (crossing ax s))).
  Proof.
    intros D Tm. destruct tau; try easy; cbn; [rewrite Rleb_true; now apply cross_pos|].
    destruct (Rlt_dec 0 (d ax)); [|lra]. cbn. split; [discriminate|tauto].
  Qed.
  Lemma coord_le_neg ax s tau : d ax < 0 -> time tau -> (xleb (coord tau ax) (X s) = true <-> xle (X (crossing ax s)) tau).
  Proof.
    intros D Tm. destruct tau; try easy; cbn; [rewrite Rleb_true; now apply cross_neg|].
    destruct (Rlt_dec 0 (d ax)); [lra|]. cbn. tauto.
  Qed.
  Lemma coord_nan tau ax : time tau -> coord tau ax <> XNaN.
  Proof. destruct tau; cbn; try tauto; try discriminate. destruct (Rlt_dec 0 (d ax)); discriminate. Qed.
  Lemma xltb_negb a b : a <> XNaN -> b <> XNaN -> xltb a b = negb (xleb b a).
  Proof. exact (ltb_leb a b). Qed.

  (** A time is the start of the ray, infinity, or the crossing of a split plane of a node outside tree t. *)
  Definition origin (t : tr) tau : Prop := exists m ax s, inner_at m ax s /\ ~ In m (nodes_of t) /\ tau = X (crossing ax s).
  Definition nearT t tau := tau = X 0 \/ origin t tau.
  Definition farT t tau := tau = XP \/ origin t tau.
  Definition covered (t : tr) a b : Prop := In o (objs_of t) /\ xle a (X t0) /\ xle (X t0) b.
  Definition task (t : tr) a b : Prop := rep ns bs t /\ sep objs t /\ NoDup (nodes_of t) /\ nearT t a /\ farT t b /\ time a /\ time b /\ xle a b.

  Inductive chainX (stack : list (stackElem xr)) : nat -> xr -> list (tr * xr * xr) -> Prop :=
  | cx_end s : nth_error stack 1 = Some s -> snode s = None -> elem_ok s XP -> chainX stack 1 XP []
  | cx_cons e s tau t tau' ts : nth_error stack e = Some s -> snode s = Some (idx t) -> (sprev s < e)%nat -> elem_ok s tau ->
      task t tau tau' -> chainX stack (sprev s) tau' ts -> chainX stack e tau ((t, tau, tau') :: ts).
  Lemma chainX_update stack e tau ts i x : chainX stack e tau ts -> (e < i)%nat -> chainX (update stack i x) e tau ts.
  Proof.
    induction 1 as [s E N K|e s tau t tau' ts E N L K Tk C IH]; intros Li.
    - apply (cx_end _ s); auto. rewrite update_neq by lia. assumption.
    - apply (cx_cons _ e s); auto. { rewrite update_neq by lia. assumption. } apply IH. lia.
  Qed.
  Lemma chainX_elem stack e tau ts : chainX stack e tau ts -> exists s, nth_error stack e = Some s /\ elem_ok s tau.
  Proof. destruct 1; eauto. Qed.

  Lemma origin_sub t t' tau : (forall m, In m (nodes_of t') -> In m (nodes_of t)) -> origin t tau -> origin t' tau.
  Proof. intros Sb (m & ax & s & I & N & E). exists m, ax, s. split; [exact I|]. split; [|exact E]. intros Hm. apply N, Sb, Hm. Qed.

  (** A plane through the point at t0 other than that of node n is impossible unless O straddles n's plane. *)
  Lemma straddle n ax s t tau : inner_at n ax s -> In n (nodes_of t) -> q ax = s -> (tau = X 0 \/ origin t tau) -> tau = X t0 ->
    at3 (minPoint O) ax < s < at3 (maxPoint O) ax.
  Proof.
    intros I In' E Or Et. destruct (Hgen n ax s I E) as [H|[Hp Hm]]; [assumption|]. exfalso.
    destruct Or as [->|(m & ax' & s' & Im & Nm & ->)]; [injection Et as Et; lra|]. injection Et as Et.
    apply (Hm m ax' s' Im); [intros ->; contradiction|]. unfold crossing in Et.
    assert (E2 : (s' - p ax') / d ax' * d ax' = s' - p ax') by (field; apply Hd). rewrite Et in E2. lra.
  Qed.

  Definition promise t a b ts : Prop := covered t a b \/ exists t' a' b', In (t', a', b') ts /\ covered t' a' b'.
  Definition leaf_covered leaf a b : Prop :=
    (exists b' os, nth_error ns leaf = Some (NLeaf b') /\ nth_error bs b' = Some (Some os) /\ In o os) /\ xle a (X t0) /\ xle (X t0) b.

  Lemma descend_exact : forall t ts fuel entry exit stack en leaf exit' stack' a b,
    task t a b -> (forall t', In t' ts -> task (fst (fst t')) (snd (fst t')) (snd t')) ->
    nth_error stack entry = Some en -> elem_ok en a -> chainX stack exit b ts -> length stack = 100%nat -> promise t a b ts ->
    rayDescend fuel ns (xray r) (idx t) entry exit stack = Some (Some (leaf, exit', stack')) ->
    exists ts' b', nth_error stack' entry = Some en /\ chainX stack' exit' b' ts' /\
      (forall t', In t' ts' -> task (fst (fst t')) (snd (fst t')) (snd t')) /\ length stack' = 100%nat /\
      (leaf_covered leaf a b' \/ exists t' a' b'', In (t', a', b'') ts' /\ covered t' a' b'').
  Proof.
    induction t as [i bk os|i ax pos l IHl rr IHr]; intros ts fuel entry exit stack en leaf exit' stack' a b Tk Tks Een Ken Ch Len Pr E;
      (destruct fuel as [|fuel]; [discriminate|]); cbn [rayDescend idx] in E.
    - destruct Tk as ([E1 E2] & _). rewrite E1 in E. injection E as <- <- <-. exists ts, b. do 4 (split; [assumption|]).
      destruct Pr as [(C1 & C2 & C3)|Pr]; [left|right; exact Pr]. split; [|auto]. exists bk, os. auto.
    - destruct Tk as ((E1 & E2 & Rl & Rr) & (Hax & _ & S1 & S2 & Sl & Sr) & ND & Na & Fb & Ta & Tb & Lab).
      destruct (Hfin _ _ _ _ E1) as [s ->]. assert (Ii : inner_at i ax s) by (eexists; exact E1).
      cbn [nodes_of] in ND. inversion ND as [|? ? ND1 ND2]; subst. destruct (NoDup_app_kd _ _ ND2) as (NDl & NDr & Dlr).
      rewrite E1, Een in E. destruct (chainX_elem _ _ _ _ Ch) as (exi & Eexi & Kexi). rewrite Eexi in E.
      destruct Ken as (Ken1 & _ & Ken2). rewrite Ken2 in E. destruct Kexi as (Kexi1 & _ & Kexi2). rewrite Kexi2 in E.
      assert (Subl : forall m, In m (nodes_of l) -> In m (nodes_of (TN i ax (X s) l rr))) by (intros m Hm; cbn; rewrite in_app_iff; auto).
      assert (Subr : forall m, In m (nodes_of rr) -> In m (nodes_of (TN i ax (X s) l rr))) by (intros m Hm; cbn; rewrite in_app_iff; auto).
      assert (Nl : forall tau, nearT (TN i ax (X s) l rr) tau -> nearT l tau /\ nearT rr tau).
      { intros tau [->|Or]; [split; now left|]. split; right; eapply origin_sub; eauto. }
      assert (Fl : forall tau, farT (TN i ax (X s) l rr) tau -> farT l tau /\ farT rr tau).
      { intros tau [->|Or]; [split; now left|]. split; right; eapply origin_sub; eauto. }
      assert (Ori : origin l (X (crossing ax s)) /\ origin rr (X (crossing ax s))).
      { split; exists i, ax, s; (split; [assumption|]); (split; [|reflexivity]); intros Hm; apply ND1; apply in_app_iff; auto. }
      assert (Only : In o (objs_of (TN i ax (X s) l rr)) ->
                 (In o (objs_of l) /\ In o (objs_of rr)) \/ (In o (objs_of l) /\ at3 (maxPoint O) ax <= s) \/ (In o (objs_of rr) /\ s <= at3 (minPoint O) ax)).
      { intros I. cbn in I. apply in_app_iff in I. destruct (in_dec Nat.eq_dec o (objs_of l)) as [Il|Il], (in_dec Nat.eq_dec o (objs_of rr)) as [Ir|Ir]; try tauto.
        - right. left. split; [auto|]. specialize (S1 o _ HO Il Ir). cbn [xbox maxPoint] in S1. rewrite at3_xv in S1. cbn in S1. now apply Rleb_true in S1.
        - right. right. split; [auto|]. specialize (S2 o _ HO Ir Il). cbn [xbox minPoint] in S2. rewrite at3_xv in S2. cbn in S2. now apply Rleb_true in S2. }
      specialize (Hin ax).
      set (ts0 := crossing ax s) in *.
      assert (Ets : p ax + ts0 * d ax = s) by (unfold ts0, crossing; field; apply Hd).
      pose proof (Hd ax) as Dax.
      assert (TaskL : forall a' b', nearT l a' -> farT l b' -> time a' -> time b' -> xle a' b' -> task l a' b') by (intros; repeat split; auto).
      assert (TaskR : forall a' b', nearT rr a' -> farT rr b' -> time a' -> time b' -> xle a' b' -> task rr a' b') by (intros; repeat split; auto).
      (* going on into one child *)
      assert (GoL : (covered (TN i ax (X s) l rr) a b -> In o (objs_of l)) ->
                rayDescend fuel ns (xray r) (idx l) entry exit stack = Some (Some (leaf, exit', stack')) ->
                exists ts' b', nth_error stack' entry = Some en /\ chainX stack' exit' b' ts' /\
                  (forall t', In t' ts' -> task (fst (fst t')) (snd (fst t')) (snd t')) /\ length stack' = 100%nat /\
                  (leaf_covered leaf a b' \/ exists t' a' b'', In (t', a', b'') ts' /\ covered t' a' b'')).
      { intros C E'. apply (IHl ts fuel entry exit stack en leaf exit' stack' a b); auto.
        - apply TaskL; auto; [now apply Nl|now apply Fl].
        - split; [assumption|]. split; assumption.
        - destruct Pr as [Pr|Pr]; [left|right; exact Pr]. destruct Pr as (C1 & C2). split; [apply C; split; auto|exact C2]. }
      assert (GoR : (covered (TN i ax (X s) l rr) a b -> In o (objs_of rr)) ->
                rayDescend fuel ns (xray r) (S (idx l)) entry exit stack = Some (Some (leaf, exit', stack')) ->
                exists ts' b', nth_error stack' entry = Some en /\ chainX stack' exit' b' ts' /\
                  (forall t', In t' ts' -> task (fst (fst t')) (snd (fst t')) (snd t')) /\ length stack' = 100%nat /\
                  (leaf_covered leaf a b' \/ exists t' a' b'', In (t', a', b'') ts' /\ covered t' a' b'')).
      { intros C E'. rewrite <- E2 in E'. apply (IHr ts fuel entry exit stack en leaf exit' stack' a b); auto.
        - apply TaskR; auto; [now apply Nl|now apply Fl].
        - split; [assumption|]. split; assumption.
        - destruct Pr as [Pr|Pr]; [left|right; exact Pr]. destruct Pr as (C1 & C2). split; [apply C; split; auto|exact C2]. }
      (* pushing the far child *)
      revert E. cbn [rpos rdir xray]. rewrite !at3_xv.
      change (nsub (X s) (X (p ax))) with (X (s + - p ax)). cbn [ndiv Num_X xdiv].
      destruct (Req_EM_T (d ax) 0) as [|_]; [contradiction|]. change ((s + - p ax) / d ax) with ts0.
      set (e2 := if (S exit =? entry)%nat then S (S exit) else S exit).
      assert (He2 : (exit < e2)%nat /\ e2 <> entry) by (unfold e2; destruct (Nat.eqb_spec (S exit) entry); lia).
      match goal with |- context [SE _ (X ts0) ?v _] => set (pp := v) end.
      assert (Kpp : forall nd, elem_ok (SE nd (X ts0) pp exit) (X ts0)).
      { intros nd. split; [reflexivity|]. split; [exact I|]. cbn [sp]. intros ax'. unfold pp, coord.
        destruct ax as [|[|[|ax]]]; try lia; destruct ax' as [|[|ax']]; cbn; cbn in Ets; rewrite ?Ets; reflexivity. }
      assert (PushL : xle a (X ts0) -> xle (X ts0) b ->
                (covered (TN i ax (X s) l rr) a b -> (In o (objs_of l) /\ t0 <= ts0) \/ (In o (objs_of rr) /\ ts0 <= t0)) ->
                (if (e2 <? rayStackSize)%nat then
                   rayDescend fuel ns (xray r) (idx l) entry e2 (update stack e2 (SE (Some (S (idx l))) (X ts0) pp exit))
                 else None) = Some (Some (leaf, exit', stack')) ->
                exists ts' b', nth_error stack' entry = Some en /\ chainX stack' exit' b' ts' /\
                  (forall t', In t' ts' -> task (fst (fst t')) (snd (fst t')) (snd t')) /\ length stack' = 100%nat /\
                  (leaf_covered leaf a b' \/ exists t' a' b'', In (t', a', b'') ts' /\ covered t' a' b'')).
      { intros L1 L2 C E'. destruct (Nat.ltb_spec e2 rayStackSize) as [He|]; [|discriminate]. unfold rayStackSize in He.
        apply (IHl ((rr, X ts0, b) :: ts) fuel entry e2 (update stack e2 (SE (Some (S (idx l))) (X ts0) pp exit)) en leaf exit' stack' a (X ts0)); auto.
        - apply TaskL; auto; [now apply Nl|right; apply Ori|exact I].
        - intros t' [<-|Ht']; [|auto]. cbn [fst snd]. apply TaskR; auto; [right; apply Ori|now apply Fl|exact I].
        - rewrite update_neq by lia. assumption.
        - split; [assumption|]. split; assumption.
        - apply (cx_cons _ e2 (SE (Some (S (idx l))) (X ts0) pp exit)); cbn [snode sprev]; try lia.
          + apply update_eq. lia.
          + now rewrite E2.
          + apply Kpp.
          + apply TaskR; auto; [right; apply Ori|now apply Fl|exact I].
          + apply chainX_update; [assumption|lia].
        - rewrite update_length. assumption.
        - destruct Pr as [Pr|(t' & a' & b' & Ht' & Pr)]; [|right; exists t', a', b'; split; [now right|assumption]].
          destruct (C Pr) as [[C1 C2]|[C1 C2]]; [left|right]; destruct Pr as (P1 & P2 & P3).
          + split; [assumption|]. split; [assumption|exact C2].
          + exists rr, (X ts0), b. split; [now left|]. split; [assumption|]. split; [exact C2|assumption]. }
      assert (PushR : xle a (X ts0) -> xle (X ts0) b ->
                (covered (TN i ax (X s) l rr) a b -> (In o (objs_of rr) /\ t0 <= ts0) \/ (In o (objs_of l) /\ ts0 <= t0)) ->
                (if (e2 <? rayStackSize)%nat then
                   rayDescend fuel ns (xray r) (S (idx l)) entry e2 (update stack e2 (SE (Some (idx l)) (X ts0) pp exit))
                 else None) = Some (Some (leaf, exit', stack')) ->
                exists ts' b', nth_error stack' entry = Some en /\ chainX stack' exit' b' ts' /\
                  (forall t', In t' ts' -> task (fst (fst t')) (snd (fst t')) (snd t')) /\ length stack' = 100%nat /\
                  (leaf_covered leaf a b' \/ exists t' a' b'', In (t', a', b'') ts' /\ covered t' a' b'')).
      { intros L1 L2 C E'. rewrite <- E2 in E'. destruct (Nat.ltb_spec e2 rayStackSize) as [He|]; [|discriminate]. unfold rayStackSize in He.
        apply (IHr ((l, X ts0, b) :: ts) fuel entry e2 (update stack e2 (SE (Some (idx l)) (X ts0) pp exit)) en leaf exit' stack' a (X ts0)); auto.
        - apply TaskR; auto; [now apply Nl|right; apply Ori|exact I].
        - intros t' [<-|Ht']; [|auto]. cbn [fst snd]. apply TaskL; auto; [right; apply Ori|now apply Fl|exact I].
        - rewrite update_neq by lia. assumption.
        - split; [assumption|]. split; assumption.
        - apply (cx_cons _ e2 (SE (Some (idx l)) (X ts0) pp exit)); cbn [snode sprev]; try lia; try reflexivity.
          + apply update_eq. lia.
          + apply Kpp.
          + apply TaskL; auto; [right; apply Ori|now apply Fl|exact I].
          + apply chainX_update; [assumption|lia].
        - rewrite update_length. assumption.
        - destruct Pr as [Pr|(t' & a' & b' & Ht' & Pr)]; [|right; exists t', a', b'; split; [now right|assumption]].
          destruct (C Pr) as [[C1 C2]|[C1 C2]]; [left|right]; destruct Pr as (P1 & P2 & P3).
          + split; [assumption|]. split; [assumption|exact C2].
          + exists l, (X ts0), b. split; [now left|]. split; [assumption|]. split; [exact C2|assumption]. }
      clear Ken1 Kexi1 Ken2 Kexi2.
      assert (Hi : In i (nodes_of (TN i ax (X s) l rr))) by now left.
      assert (Bt : forall tau tau', xle tau tau' -> xle tau' tau -> time tau -> time tau' -> tau = tau').
      { intros [| | |] [| | |]; cbn; try tauto. intros; f_equal; lra. }
      assert (Anti : forall tau, time tau -> xle tau (X ts0) \/ xle (X ts0) tau) by (intros [| | |]; cbn; try tauto; intros _; lra).
      assert (Tr : forall x y z, xle x y -> xle y z -> xle x z) by (intros [| | |] [| | |] [| | |]; cbn; try tauto; lra).
      assert (Touch : forall tau, tau = X t0 -> tau = X ts0 -> (tau = X 0 \/ origin (TN i ax (X s) l rr) tau) ->
                at3 (minPoint O) ax < s < at3 (maxPoint O) ax).
      { intros tau T1 T2 Or. assert (Eq : t0 = ts0) by congruence. apply (straddle i ax s (TN i ax (X s) l rr) tau); auto. rewrite Eq. exact Ets. }
      assert (Nb : b = X t0 -> origin (TN i ax (X s) l rr) b) by (intros ->; destruct Fb as [Fb|Fb]; [discriminate|exact Fb]).
      assert (Zb : xleb (coord b ax) (X s) = false -> EqualAbs (coord b ax) (X s) (nlit 1 10000) = false).
      { intros Eb. destruct Fb as [->|(m & ax' & s' & Im & Nm & ->)].
        - unfold coord in *. destruct (Rlt_dec 0 (d ax)); [reflexivity|discriminate].
        - cbn [coord] in Eb |- *. cbn [xleb] in Eb. apply Rleb_false in Eb.
          pose proof (HZ1 i ax s m ax' s' Ii Im) as Z. unfold EqualAbs, Abs. cbn.
          destruct (Rleb_spec 0 (p ax + crossing ax' s' * d ax + - s)); cbn; [|lra].
          apply Rltb_false. lra. }
      change (nleb (coord a ax) (X s)) with (xleb (coord a ax) (X s)). change (nleb (coord b ax) (X s)) with (xleb (coord b ax) (X s)).
      change (nltb (X s) (coord b ax)) with (xltb (X s) (coord b ax)).
      rewrite (xltb_negb (X s) (coord b ax)) by (discriminate || now apply coord_nan).
      destruct (Rlt_or_le 0 (d ax)) as [D|D]; [|assert (D' : d ax < 0) by lra].
      + (* moving towards larger coordinates *)
        pose proof (coord_le_pos ax s a D Ta) as Ca. pose proof (coord_le_pos ax s b D Tb) as Cb. fold ts0 in Ca, Cb.
        pose proof (cross_pos ax s t0 D) as C0. fold ts0 in C0.
        assert (C0' : s <= q ax <-> ts0 <= t0) by (rewrite <- Ets; split; intros; nra).
        destruct (xleb (coord a ax) (X s)) eqn:Ea.
        * assert (La : xle a (X ts0)) by now apply Ca. destruct (xleb (coord b ax) (X s)) eqn:Eb.
          -- assert (Lb : xle b (X ts0)) by now apply Cb. apply GoL. intros (C1 & C2 & C3). destruct (Only C1) as [[? _]|[[? _]|[_ Ho]]]; try assumption.
             exfalso. assert (L0 : ts0 <= t0) by (apply C0'; lra).
             assert (Eq1 : b = X ts0) by (apply Bt; [assumption|eapply Tr; [|exact C3]; exact L0|assumption|exact I]).
             assert (Eq2 : b = X t0) by (apply Bt; [eapply Tr; [exact Lb|exact L0]|exact C3|assumption|exact I]).
             pose proof (Touch b Eq2 Eq1 (or_intror (Nb Eq2))). lra.
          -- rewrite Zb by reflexivity. apply PushL; auto.
             { destruct (Anti b Tb) as [L|L]; [apply Cb in L; congruence|exact L]. }
             intros (C1 & C2 & C3). destruct (Only C1) as [[Il Ir]|[[Il Ho]|[Ir Ho]]].
             ++ destruct (Rle_or_lt t0 ts0); [left; auto|right; split; [assumption|lra]].
             ++ left. split; [assumption|]. apply C0. lra.
             ++ right. split; [assumption|]. apply C0'. lra.
        * (* the entry point is beyond the split already *)
          assert (Lb : xleb (coord b ax) (X s) = false).
          { destruct (xleb (coord b ax) (X s)) eqn:Eb; [|reflexivity]. pose proof (proj1 Cb eq_refl) as Lb'. assert (La : xle a (X ts0)) by (eapply Tr; eassumption). apply Ca in La. congruence. }
          rewrite Lb. cbn [negb]. apply GoR. intros (C1 & C2 & C3). destruct (Only C1) as [[_ ?]|[[_ Ho]|[? _]]]; try assumption.
          exfalso. assert (L0 : t0 <= ts0) by (apply C0; lra). assert (La : xle a (X ts0)) by (eapply Tr; [exact C2|exact L0]). apply Ca in La. congruence.
      + (* moving towards smaller coordinates *)
        pose proof (coord_le_neg ax s a D' Ta) as Ca. pose proof (coord_le_neg ax s b D' Tb) as Cb. fold ts0 in Ca, Cb.
        pose proof (cross_neg ax s t0 D') as C0. fold ts0 in C0.
        assert (C0' : s <= q ax <-> t0 <= ts0) by (rewrite <- Ets; split; intros; nra).
        destruct (xleb (coord a ax) (X s)) eqn:Ea.
        * assert (La : xle (X ts0) a) by now apply Ca.
          assert (Eb : xleb (coord b ax) (X s) = true) by (apply Cb; eapply Tr; eassumption). rewrite Eb.
          apply GoL. intros (C1 & C2 & C3). destruct (Only C1) as [[? _]|[[? _]|[_ Ho]]]; try assumption.
          exfalso. assert (L0 : t0 <= ts0) by (apply C0'; lra).
          assert (Eq1 : a = X ts0) by (apply Bt; [eapply Tr; [exact C2|exact L0]|assumption|assumption|exact I]).
          assert (Eq2 : a = X t0) by (apply Bt; [exact C2|eapply Tr; [|exact La]; exact L0|assumption|exact I]).
          pose proof (Touch a Eq2 Eq1 Na). lra.
        * destruct (xleb (coord b ax) (X s)) eqn:Eb; cbn [negb].
          -- apply PushR; [destruct (Anti a Ta) as [L|L]; [exact L|apply Ca in L; congruence]|now apply Cb|].
             intros (C1 & C2 & C3). destruct (Only C1) as [[Il Ir]|[[Il Ho]|[Ir Ho]]].
             ++ destruct (Rle_or_lt t0 ts0); [left; auto|right; split; [assumption|lra]].
             ++ right. split; [assumption|]. apply C0. lra.
             ++ left. split; [assumption|]. apply C0'. lra.
          -- apply GoR. intros (C1 & C2 & C3). destruct (Only C1) as [[_ ?]|[[_ Ho]|[? _]]]; try assumption.
             exfalso. assert (L0 : ts0 <= t0) by (apply C0; lra). assert (Lb : xle (X ts0) b) by (eapply Tr; [|exact C3]; exact L0). apply Cb in Lb. congruence.
  Qed.

  Definition never : list (nat * xr * xr) -> bool := fun _ => false.
  Lemma loop_keeps : forall fuel c entry exit stack visited v, rayLoop fuel ns (xray r) never c entry exit stack visited = Done v ->
    forall x, In x visited -> In x v.
  Proof.
    induction fuel as [|fuel IH]; intros c entry exit stack visited v E x Hx; (destruct c as [c|]; [|injection E as <-; assumption]); [discriminate|].
    cbn [rayLoop] in E. destruct (rayDescend _ _ _ _ _ _ _) as [[[[lf e'] s']|]|]; try discriminate.
    destruct (nth_error s' entry); [|discriminate]. destruct (nth_error s' e'); [|discriminate]. cbn [never] in E.
    apply (IH _ _ _ _ _ _ E). now right.
  Qed.
  Lemma loop_exact : forall fuel t ts entry exit stack en a b visited v,
    task t a b -> (forall t', In t' ts -> task (fst (fst t')) (snd (fst t')) (snd t')) ->
    nth_error stack entry = Some en -> elem_ok en a -> chainX stack exit b ts -> length stack = 100%nat -> promise t a b ts ->
    rayLoop fuel ns (xray r) never (Some (idx t)) entry exit stack visited = Done v ->
    exists leaf a' b', In (leaf, a', b') v /\ leaf_covered leaf a' b'.
  Proof.
    induction fuel as [|fuel IH]; intros t ts entry exit stack en a b visited v Tk Tks Een Ken Ch Len Pr E; [discriminate|].
    cbn [rayLoop] in E. destruct (rayDescend _ _ _ _ _ _ _) as [[[[leaf exit'] stack']|]|] eqn:Ed; try discriminate.
    destruct (descend_exact t ts _ entry exit stack en leaf exit' stack' a b Tk Tks Een Ken Ch Len Pr Ed) as (ts' & b' & Een' & Ch' & Tks' & Len' & Cov).
    rewrite Een' in E. destruct (chainX_elem _ _ _ _ Ch') as (exi & Eexi & Kexi). rewrite Eexi in E. cbn [never] in E.
    pose proof (proj1 Ken) as Sa. pose proof (proj1 Kexi) as Sb. rewrite Sa, Sb in E.
    destruct Cov as [Cov|(t1 & a1 & b1 & I1 & Cov)].
    - exists leaf, a, b'. split; [|assumption]. eapply loop_keeps; [exact E|]. now left.
    - inversion Ch' as [s Es N K|e s tau t2 tau' ts2 Es N L K Tk2 C2]; subst; [destruct I1|]. rewrite Eexi in Es. injection Es as <-. rewrite N in E.
      apply (IH t2 ts2 exit' (sprev exi) stack' exi (st exi) tau' ((leaf, st en, st exi) :: visited) v); auto.
      + intros t' Ht'. apply Tks'. now right.
      + destruct I1 as [I1|I1]; [injection I1 as <- <- <-; now left|right; exists t1, a1, b1; auto].
  Qed.
End Exact.

(** *** Split positions *)
Section Positions.
  Context {T : Type} `{OL : OrdLaws T} `{NI : !NumInf T}.
  Variables (objs : list (aabb T)) (Q : T -> Prop).
  Hypothesis HQ : forall os A, os <> [] -> BucketAABB objs os = Some A -> forall ax, Q (at3 (AABB_CenterPoint A) ax).
  Definition allQ (ns : list (node T)) := forall j ax pos c, nth_error ns j = Some (NInner ax pos c) -> Q pos.
  Lemma split_positions : forall dd i A n ns bs ns' bs', SplitLeaf dd objs i A n ns bs = Some (ns', bs') ->
    (n <> 0%nat -> forall ax, Q (at3 (AABB_CenterPoint A) ax)) -> allQ ns -> allQ ns'.
  Proof.
    induction dd as [|dd IH]; cbn [SplitLeaf]; intros i A n ns bs ns' bs' E HA Hn; [injection E as <- <-; assumption|].
    destruct (nth_error ns i) as [[b|]|] eqn:Ei; try discriminate.
    destruct (nth_error bs b) as [[os|]|]; try discriminate.
    destruct (sortObjects _ _ _ _) as [[ls rs]|]; try discriminate.
    destruct ((n <? length ls) || (n <? length rs))%nat eqn:Eo; try discriminate.
    destruct ((length ls =? n) || (length rs =? n))%nat eqn:Ea; [injection E as <- <-; assumption|].
    destruct (BucketAABB objs ls) as [la|] eqn:El; try discriminate. destruct (BucketAABB objs rs) as [ra|] eqn:Er; try discriminate.
    apply orb_false_iff in Ea. destruct Ea as [Ea _]. apply Nat.eqb_neq in Ea. apply orb_false_iff in Eo. destruct Eo as [Eo _]. apply Nat.ltb_ge in Eo.
    specialize (HA ltac:(lia)).
    match type of E with context [update ns i ?x ++ ?y] => assert (H1 : allQ (update ns i x ++ y)) end.
    { intros j ax pos c Ej. destruct (Nat.ltb_spec j (length ns)) as [L|L].
      - rewrite nth_error_app1 in Ej by (rewrite update_length; assumption).
        destruct (Nat.eq_dec i j) as [->|N].
        + rewrite update_eq in Ej by assumption. injection Ej as <- <- <-. apply HA.
        + rewrite update_neq in Ej by assumption. eapply Hn; eassumption.
      - rewrite nth_error_app2 in Ej by (rewrite update_length; assumption). rewrite update_length in Ej.
        destruct (j - length ns)%nat as [|[|m]]; cbn in Ej; try discriminate. destruct m; discriminate. }
    revert H1 E. generalize (update ns i (NInner (MaxElementIndex (AABB_Size A)) (at3 (AABB_CenterPoint A) (MaxElementIndex (AABB_Size A))) (length ns)) ++ [NLeaf b; NLeaf (length bs)]).
    intros ns1 H1. generalize (update bs b (Some ls) ++ [Some rs]). intros bs1.
    assert (C2 : forall os A1 i1 m1 s1 m2 s2, BucketAABB objs os = Some A1 -> allQ m1 ->
      (if (16 <? length os)%nat then SplitLeaf dd objs i1 A1 (length os) m1 s1 else Some (m1, s1)) = Some (m2, s2) -> allQ m2).
    { intros os' A1 i1 m1 s1 m2 s2 EB Hm E'. destruct (Nat.ltb_spec 16 (length os')); [|injection E' as <- <-; assumption].
      apply (IH _ _ _ _ _ _ _ E'); [|assumption]. intros _. apply (HQ os'); [|assumption]. intros ->. cbn in *. lia. }
    match goal with |- context [if (16 <? length ls)%nat then ?e else Some (ns1, bs1)] => destruct (if (16 <? length ls)%nat then e else Some (ns1, bs1)) as [[ns2 bs2]|] eqn:E2 end;
      [|discriminate]. intros E3. eapply C2; [exact Er| |exact E3]. eapply C2; [exact El|exact H1|exact E2].
  Qed.
  Lemma build_positions k : Build objs = Some k -> allQ (nodes k).
  Proof.
    unfold Build. destruct (BucketAABB objs (seq 0 (length objs))) as [A|] eqn:EA; [|discriminate].
    destruct (SplitLeaf _ _ _ _ _ _ _) as [[ns' bs']|] eqn:Sp; [|discriminate]. intros E. injection E as <-. cbn [nodes].
    apply (split_positions _ _ _ _ _ _ _ _ Sp).
    - intros N. apply (HQ (seq 0 (length objs))); [|assumption]. destruct (length objs); [congruence|discriminate].
    - intros j ax pos c Ej. destruct j as [|[|j]]; cbn in Ej; try discriminate. destruct j; discriminate.
  Qed.
End Positions.

(** Finite boxes have finite bounding boxes, hence finite split positions. *)
Lemma xmin_fin a b : exists c, Min (X a) (X b) = X c.
Proof. unfold Min. destruct (nleb (X a) (X b)); eauto. Qed.
Lemma xmax_fin a b : exists c, Max (X a) (X b) = X c.
Proof. unfold Max. destruct (nleb (X b) (X a)); eauto. Qed.
Lemma enclose_fin objs os : forall a A, encloseBucket (map xbox objs) os (xbox a) = Some A -> exists A', A = xbox A'.
Proof.
  induction os as [|o os IH]; cbn [encloseBucket]; intros a A E; [injection E as <-; now exists a|].
  rewrite nth_error_map in E. destruct (nth_error objs o) as [O|]; cbn [option_map] in E; [|discriminate].
  assert (H : exists a', AABB_EncloseMinMax (xbox a) (minPoint (xbox O)) (maxPoint (xbox O)) = xbox a').
  { unfold AABB_EncloseMinMax, xbox, vMin, vMax, xv. cbn [minPoint maxPoint vx vy vz].
    destruct (xmin_fin (vx (minPoint a)) (vx (minPoint O))) as [c1 ->]. destruct (xmin_fin (vy (minPoint a)) (vy (minPoint O))) as [c2 ->].
    destruct (xmin_fin (vz (minPoint a)) (vz (minPoint O))) as [c3 ->]. destruct (xmax_fin (vx (maxPoint a)) (vx (maxPoint O))) as [c4 ->].
    destruct (xmax_fin (vy (maxPoint a)) (vy (maxPoint O))) as [c5 ->]. destruct (xmax_fin (vz (maxPoint a)) (vz (maxPoint O))) as [c6 ->].
    now exists (Box (V3 c1 c2 c3) (V3 c4 c5 c6)). }
  destruct H as [a' H]. rewrite H in E. now apply (IH a').
Qed.
Lemma bucket_fin objs os A : os <> [] -> BucketAABB (map xbox objs) os = Some A -> exists A', A = xbox A'.
Proof.
  intros N E. destruct os as [|o os]; [congruence|]. unfold BucketAABB in E. cbn [encloseBucket] in E.
  rewrite nth_error_map in E. destruct (nth_error objs o) as [O|]; cbn [option_map] in E; [|discriminate].
  change (AABB_EncloseMinMax AABB_NegativeInfinity (minPoint (xbox O)) (maxPoint (xbox O))) with (xbox O) in E.
  now apply (enclose_fin objs os O).
Qed.
Lemma positions_fin objs k : Build (map xbox objs) = Some k -> forall j ax pos c, nth_error (nodes k) j = Some (NInner ax pos c) -> exists s, pos = X s.
Proof.
  intros E. apply (build_positions (map xbox objs) (fun x => exists s, x = X s)); [|exact E].
  intros os A N EA ax. destruct (bucket_fin objs os A N EA) as [A' ->]. destruct ax as [|[|ax]]; eexists; reflexivity.
Qed.

(** *** The root box *)
Lemma slab_hit mn mx pos dir a b t : 1/10000 <= Rabs dir -> mn <= pos + t * dir <= mx -> a <= t ->
  match b with Fin (X b) => t <= b | PInf => True | _ => False end ->
  exists a' b', slab (X mn) (X mx) (X pos) (X dir) (Fin (X a)) b = (true, Fin (X a'), b') /\ a' <= t /\
    match b' with Fin (X b) => t <= b | PInf => True | _ => False end.
Proof.
  intros Hd Hb Ha Hbb. unfold slab.
  assert (E : EqualAbs (X dir) n0 (nlit 1 10000) = false).
  { unfold EqualAbs, Abs, n0. cbn. unfold Rabs in Hd. destruct (Rcase_abs dir); destruct (Rleb_spec 0 (dir + - 0)); cbn; apply Rltb_false; lra. }
  rewrite E. cbn [negb]. cbn [ndiv n1 nlit Num_X xdiv Rlit]. destruct (Req_EM_T dir 0) as [->|N]; [rewrite Rabs_R0 in Hd; lra|].
  set (t1 := (mn + - pos) * (1 / dir)). set (t2 := (mx + - pos) * (1 / dir)).
  change (nmul (nsub (X mn) (X pos)) (X (1 / dir))) with (X t1). change (nmul (nsub (X mx) (X pos)) (X (1 / dir))) with (X t2).
  change (nltb (X t1) (X t2)) with (Rltb t1 t2).
  assert (E1 : t1 * dir = mn - pos) by (unfold t1; field; assumption). assert (E2 : t2 * dir = mx - pos) by (unfold t2; field; assumption).
  assert (B : forall lo hi, lo <= t <= hi -> exists a' b', (true, emax (X lo) (Fin (X a)), emin (X hi) b) = (true, Fin (X a'), b') /\ a' <= t /\
      match b' with Fin (X b) => t <= b | PInf => True | _ => False end).
  { intros lo hi [L1 L2]. cbn [emax]. unfold Max. cbn [nleb Num_X xleb].
    assert (exists a', (if Rleb a lo then X lo else X a) = X a' /\ a' <= t) as (a' & -> & La') by (destruct (Rleb a lo); eauto).
    exists a'. destruct b as [|[|b| |]|]; try tauto; cbn [emin].
    - unfold Min. cbn [nleb Num_X xleb]. destruct (Rleb hi b); eexists; (split; [reflexivity|]); auto.
    - eexists. split; [reflexivity|]. auto. }
  clearbody t1 t2. destruct (Rltb_spec t1 t2) as [L|L]; apply B.
  - unfold Rabs in Hd. destruct (Rcase_abs dir); [|split; nra]. exfalso. nra.
  - unfold Rabs in Hd. destruct (Rcase_abs dir); [split; nra|]. assert (t1 = t2) by nra. split; nra.
Qed.
Lemma root_hit b r t : (forall ax, 1/10000 <= Rabs (at3 (rdir r) ax)) -> 0 <= t ->
  (forall ax, at3 (minPoint b) ax <= at3 (rpos r) ax + t * at3 (rdir r) ax <= at3 (maxPoint b) ax) ->
  exists tn tf, AABB_IntersectLine (xbox b) (rpos (xray r)) (rdir (xray r)) (Fin n0) PInf = (true, tn, tf).
Proof.
  intros Hd Ht Hb. unfold AABB_IntersectLine. cbn [xbox xray minPoint maxPoint rpos rdir xv vx vy vz].
  pose proof (Hb 0%nat) as B0. pose proof (Hb 1%nat) as B1. pose proof (Hb 2%nat) as B2. cbn in B0, B1, B2.
  pose proof (Hd 0%nat) as D0. pose proof (Hd 1%nat) as D1. pose proof (Hd 2%nat) as D2. cbn in D0, D1, D2.
  assert (G : forall a' b', a' <= t -> match b' with Fin (X b) => t <= b | PInf => True | _ => False end -> egt (Fin (X a')) b' = false /\ ele (Fin (X a')) b' = true).
  { intros a' b' L1 L2. destruct b' as [|[|b'| |]|]; try (exfalso; assumption); [|split; reflexivity]. cbn. split; [apply Rltb_false; lra|apply Rleb_true; lra]. }
  change (Fin n0) with (Fin (X 0)).
  destruct (slab_hit _ _ _ _ 0 PInf t D0 B0 Ht I) as (a1 & b1 & -> & La1 & Lb1). cbn [negb]. rewrite (proj1 (G a1 b1 La1 Lb1)), andb_false_r.
  destruct (slab_hit _ _ _ _ a1 b1 t D1 B1 La1 Lb1) as (a2 & b2 & -> & La2 & Lb2). cbn [negb]. rewrite (proj1 (G a2 b2 La2 Lb2)), andb_false_r.
  destruct (slab_hit _ _ _ _ a2 b2 t D2 B2 La2 Lb2) as (a3 & b3 & -> & La3 & Lb3). cbn [negb]. rewrite (proj2 (G a3 b3 La3 Lb3)). eauto.
Qed.
