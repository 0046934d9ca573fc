(** Properties C57-C60: the quadtree, after any legal history of Clear, Add and Remove (see [legal_history]).

    C57 holds for every scalar type, in particular binary32, whatever the rectangles are.  The geometric properties C58-C60
    are proved for exact reals with root growth, and for binary32 as long as the root does not grow; with growth they are
    refuted for binary32. *)
From Coq Require Import Reals ZArith Bool List Permutation Lia Lra.
From Coq Require Import Floats.SpecFloat.
From Flocq Require Import Core.Core IEEE754.BinarySingleNaN.
From Verif Require Import Num NumR F32 F32Laws F32Lemmas ScalarModel Vec2Model KdTreeModel KdTreeSpec KdTreeProofs QuadTreeModel QuadTreeSpec
  QuadTreeProofs QuadTreeGrow QuadTreeHist QuadTreeQuery QuadTreeGeo QuadTreeReal QuadTreeF32 QuadTreeStats.
Import ListNotations.
Ltac Zify.zify_post_hook ::= idtac.
Local Open Scope nat_scope.

Definition stores {T} (t : qt (T := T)) (n o : nat) : Prop := exists nd, nth_error (qnodes t) n = Some nd /\ In o (qobjs nd).
Definition below_root {T} (t : qt (T := T)) (n : nat) : Prop := qreach (qnodes t) (qroot t) n.

(** ** C57 *)
Section Any.
  Context {T : Type} `{NT : Num T}.
  Variable rect : nat -> aabb2 T.
  Definition any_side (q : nat) (c : v2 T) (o : nat) : Prop := True.
  Definition any_link (q : nat) (c r c' r' : v2 T) : Prop := True.
  Definition any_bound (b : aabb2 T) (c r : v2 T) : Prop := True.
  Definition any_in (b : aabb2 T) (o : nat) : Prop := True.
  Definition any_obj (o : nat) : Prop := True.
  Definition any_box (mn mx : v2 T) : Prop := True.
  Lemma any_ops (ops : list (qop T)) : Forall (okop any_obj any_box) ops.
  Proof. apply Forall_forall. intros [| |] _; exact I. Qed.
  Lemma any_grow (b : aabb2 T) (c r : v2 T) (o q : nat) : any_bound b c r -> any_obj o -> growDirection b (rect o) = Some q ->
    let b' := growBound b q in let c' := muls2 (add2 (min2 b') (max2 b')) nhalf in let r' := sub2 (max2 b') c' in
    any_bound b' c' r' /\ (forall p, any_in b p -> any_in b' p) /\ (forall p, any_in b p -> any_side q c' p) /\
    (forall t i, cen t = c -> rad t = r -> inv any_side any_link t -> inv any_side any_link (reroot t i (childc q c' (muls2 r' nhalf)) (muls2 r' nhalf))).
  Proof.
    intros _ _ _. repeat split. intros t i _ _ V. inversion V; subst; cbn; constructor; intros; try exact I; eauto.
  Qed.
  Lemma any_run fuel ops s' : legal_history ops -> qrun rect fuel qstart ops = QDone s' -> okstate any_side any_link any_bound any_in s' (book_run ops).
  Proof.
    intros L E. unfold book_run. refine (run_ok rect any_side any_link any_bound any_in any_obj any_box _ _ _ _ any_grow fuel ops _ _ _ _ L (any_ops ops) E);
      try (intros; exact I). apply start_ok.
  Qed.
End Any.

(** After any legal history the tree holds exactly the objects added and not removed since the last Clear, each in one place,
    below the root, and every object knows its node. *)
Theorem C57_contents {T} {NT : Num T} (rect : nat -> aabb2 T) fuel (ops : list (qop T)) t a :
  legal_history ops -> qrun rect fuel qstart ops = QDone (t, a) ->
  Permutation (flat_map qobjs (qnodes t)) (stored (book_run ops)) /\ NoDup (stored (book_run ops)) /\
  (forall o, In o (stored (book_run ops)) -> exists n, a o = Some n /\ stores t n o /\ below_root t n /\ forall n', stores t n' o -> n' = n) /\
  (forall o, ~ In o (stored (book_run ops)) -> ~ In o (stale (book_run ops)) -> a o = None).
Proof.
  intros L E. pose proof (any_run rect fuel ops _ L E) as [Of Ot On]. cbn [fst snd] in *.
  destruct (cleared (book_run ops)) eqn:Ec.
  - destruct (Ot eq_refl) as (tree & O & _ & P). assert (O' := O). destruct O' as [[W1 W2 W3] Ir Bl Cv Hm].
    pose proof (Permutation_trans (all_objs t a tree O) P) as PP. pose proof (Permutation_NoDup P W3) as Nd. split; [exact PP|]. split; [exact Nd|]. split; [|exact On].
    intros o Io. apply (Permutation_in _ (Permutation_sym P)) in Io. destruct (objs_holds _ _ _ _ W1 Io) as [j Hj]. exists j. split; [now apply Hm|].
    assert (Sj : stores t j o) by (apply (holds_at _ _ _ W1 _ _ Hj)). split; [exact Sj|]. split.
    + unfold below_root. rewrite <- Ir. eapply reach_idx; [exact W1|]. apply (holds_objs _ _ _ Hj).
    + intros n' (nd & En & In'). pose proof (nth_some_lt _ _ _ En) as Ln. destruct (Cv n' Ln) as [I|I].
      * apply (holds_unique _ _ _ (ot_wf _ _ _ O) n' j o); [|exact Hj]. apply (holds_iff _ _ _ W1). split; [exact I|]. unfold objs_at. now rewrite En.
      * exfalso. destruct (Bl (n' - qroot t) ltac:(lia)) as (_ & p0 & c0 & r0 & E0). replace (qroot t + (n' - qroot t)) with n' in E0 by lia.
        rewrite En in E0. injection E0 as ->. contradiction.
  - destruct (Of eq_refl) as [E1 E2]. injection E1 as ->. rewrite E2 in *. repeat split; [constructor|constructor|intros o []|exact On].
Qed.
Print Assumptions C57_contents.

(** No legal history makes an invalid access. *)
Theorem C57_no_invalid_access {T} {NT : Num T} (rect : nat -> aabb2 T) fuel (ops : list (qop T)) : legal_history ops -> qrun rect fuel qstart ops <> QFault.
Proof.
  intros L. refine (run_nf rect any_side any_link any_bound any_in any_obj any_box _ _ _ _ (any_grow rect) fuel ops _ _ _ L (any_ops ops)); try (intros; exact I). apply start_ok.
Qed.
Print Assumptions C57_no_invalid_access.

(** With exact arithmetic and boxes of positive size every history ends: each Add, including root growth and repeated
    splitting, terminates (or runs into the 200000-node limit). *)
Definition proper_clears (ops : list (qop R)) : Prop := forall mn mx, In (OpClear mn mx) ops -> (x2 mn < x2 mx)%R /\ (y2 mn < y2 mx)%R.
Lemma proper_ok ops : proper_clears ops -> Forall (okop (fun _ => True) okboxR) ops.
Proof. intros P. apply Forall_forall. intros [mn mx|o|o] I; cbn; auto. now apply P. Qed.
Theorem C57_terminates (rect : nat -> aabb2 R) (ops : list (qop R)) : legal_history ops -> proper_clears ops ->
  exists f0 res, res <> QTimeout /\ forall fuel, f0 <= fuel -> qrun rect fuel qstart ops = res.
Proof. intros L P. apply (run_settles rect ops qstart (Book false [] [])); [apply start_ok|exact L|now apply proper_ok]. Qed.
Print Assumptions C57_terminates.

(** *** Concrete histories: 18 objects; sixteen in one quadrant, one in the opposite one, the last one outside the box. *)
Definition fz (z : Z) : f32 := f32_ofZ z.
Definition sq (x y : Z) : aabb2 f32 := Box2 (V2 (fz x) (fz y)) (V2 (fz (x + 1)) (fz (y + 1))).
Definition rectA (o : nat) : aabb2 f32 := if o <? 16 then sq (50 + Z.of_nat o) 60 else if o =? 16 then sq 10 10 else sq 100 100.
Definition adds {T} (n : nat) : list (qop T) := map OpAdd (seq 0 n).
Definition opsA : list (qop f32) := OpClear (V2 (fz 0) (fz 0)) (V2 (fz 80) (fz 80)) :: adds 18 ++ [OpRemove 3].
Lemma legal_dec_adds {T} n : forall k bk, cleared bk = true -> (forall o, In o (stored bk) -> o < k) -> legal_from bk (map (@OpAdd T) (seq k n)).
Proof.
  induction n as [|n IH]; intros k bk C S; cbn; [exact I|]. split; [split; [exact C|intros I0; apply S in I0; lia]|].
  apply IH; cbn; [exact C|]. intros o [<-|I0]; [lia|]. apply S in I0. lia.
Qed.
Lemma legal_app {T} (l1 l2 : list (qop T)) bk : legal_from bk l1 -> legal_from (fold_left book_step l1 bk) l2 -> legal_from bk (l1 ++ l2).
Proof. revert bk. induction l1 as [|x l1 IH]; intros bk L1 L2; cbn in *; [exact L2|]. split; [apply L1|]. apply IH; [apply L1|exact L2]. Qed.
Example C57_witness : legal_history opsA /\ (exists t a, qrun rectA 200 qstart opsA = QDone (t, a) /\ length (qnodes t) = 12 /\ a 3 = None /\ a 16 <> None) /\
  length (stored (book_run opsA)) = 17.
Proof.
  split; [|split; [|reflexivity]].
  - split; [exact I|]. apply legal_app; [apply legal_dec_adds; [reflexivity|intros o []]|]. cbn. repeat split. intros [].
  - assert (X : match qrun rectA 200 qstart opsA with
      | QDone (t, a) => (length (qnodes t) =? 12) && (match a 3 with None => true | _ => false end) && (match a 16 with None => false | _ => true end)
      | _ => false end = true) by (vm_compute; reflexivity).
    destruct (qrun rectA 200 qstart opsA) as [| | |[t a]]; try discriminate. exists t, a. split; [reflexivity|].
    apply andb_prop in X. destruct X as [X X3]. apply andb_prop in X. destruct X as [X1 X2]. apply Nat.eqb_eq in X1. split; [exact X1|].
    destruct (a 3), (a 16); try discriminate. split; [reflexivity|discriminate].
Qed.
(** Removing an object that was in the tree when it was cleared follows its stale node pointer (QuadTree.inl:115-126). *)
Theorem C57_remove_after_clear_refuted : exists (rect : nat -> aabb2 f32) fuel ops,
  qrun rect fuel qstart (ops ++ [OpRemove 0]) = QFault /\ legal_history ops /\ ~ legal_history (ops ++ [OpRemove 0]).
Proof.
  exists rectA, 200, (opsA ++ [OpClear (V2 (fz 0) (fz 0)) (V2 (fz 80) (fz 80))]).
  assert (L : legal_history (opsA ++ [OpClear (V2 (fz 0) (fz 0)) (V2 (fz 80) (fz 80))])).
  { apply legal_app; [apply C57_witness|]. cbn. auto. }
  split; [|split; [exact L|]].
  - assert (X : match qrun rectA 200 qstart ((opsA ++ [OpClear (V2 (fz 0) (fz 0)) (V2 (fz 80) (fz 80))]) ++ [OpRemove 0]) with QFault => true | _ => false end = true) by (vm_compute; reflexivity).
    destruct (qrun rectA 200 qstart _); try discriminate. reflexivity.
  - clear L. intros L. assert (X : forall (T : Type) (l : list (qop T)) o bk, legal_from bk (l ++ [OpRemove o]) -> ~ In o (stale (fold_left book_step l bk))).
    { induction l as [|x l IH]; intros o bk Lx; cbn in *; [apply Lx|]. apply IH. apply Lx. }
    apply X in L. apply L. vm_compute. auto 20.
Qed.
Print Assumptions C57_remove_after_clear_refuted.
(** Before the first Clear there is no root, and Add dereferences null. *)
Theorem C57_add_before_clear_refuted : forall (rect : nat -> aabb2 f32) fuel o, qrun rect fuel qstart [OpAdd o] = QFault.
Proof. intros rect [|fuel] o; reflexivity. Qed.
Print Assumptions C57_add_before_clear_refuted.

(** ** C58 *)
(** A box query visits a fixed list of nodes, until the callback stops it: no node twice, only nonempty nodes of the tree,
    and the node of every stored object that meets the query box. *)
Definition query_spec {T} {NT : Num T} (rect : nat -> aabb2 T) (t : qt (T := T)) (bk : book) (q : aabb2 T) : Prop :=
  exists full, NoDup full /\
    (forall n, In n full -> below_root t n /\ exists o, stores t n o) /\
    (forall o, In o (stored bk) -> AABB2D_Intersects q (rect o) = true -> exists n, In n full /\ stores t n o) /\
    (forall stop fuel, length (qnodes t) <= fuel -> QuadTree_AABBQuery fuel t q stop = QDone (until stop full [])).
Lemma query_ok {T} {NT : Num T} {OL : OrdLaws T} {SL : SubLaws T} (rect : nat -> aabb2 T) (binv : aabb2 T -> v2 T -> v2 T -> Prop) s bk q :
  (forall b c r, binv b c r -> okv c /\ finv r) -> (forall o, In o (stored bk) -> finb (rect o)) ->
  okstate (sideOf rect) linkOf binv (inbOf rect) s bk -> query_spec rect (fst s) bk q.
Proof.
  intros Bi Fi [Of Ot On]. destruct (cleared bk) eqn:Ec.
  - destruct (Ot eq_refl) as (tree & O & V & P). set (t := fst s) in *. assert (O' := O). destruct O' as [[W1 W2 W3] Ir Bl Cv Hm].
    exists (fullv t tree q). split; [now apply (full_nodup rect t (snd s))|]. split; [|split].
    + intros n In_. destruct (full_in rect t (snd s) tree q n O In_) as [I1 I2]. split; [unfold below_root; rewrite <- Ir; eapply reach_idx; eassumption|].
      unfold objs_at in I2. destruct (nth_error (qnodes t) n) as [nd|] eqn:En; [|contradiction]. destruct (qobjs nd) as [|o os] eqn:Eo; [contradiction|].
      exists o, nd. split; [exact En|]. rewrite Eo. now left.
    + intros o Io X. assert (It : In o (aobjs tree)) by now apply (Permutation_in _ (Permutation_sym P)).
      destruct (objs_holds _ _ _ _ W1 It) as [j Hj]. exists j. split; [|apply (holds_at _ _ _ W1 _ _ Hj)].
      now apply (full_complete rect binv Bi t (snd s) tree q j o O V Hj (Fi o Io)).
    + intros stop fuel Lf. now apply (query_full t (snd s)).
  - destruct (Of eq_refl) as [E1 E2]. exists []. split; [constructor|]. split; [intros n []|]. rewrite E2. split; [intros o []|].
    intros stop fuel _. rewrite E1. reflexivity.
Qed.
Lemma binvR_ok b c r : binvR b c r -> okv c /\ finv r. Proof. intros _. repeat split; exact I. Qed.
Lemma finb_R (b : aabb2 R) : finb b. Proof. repeat split; exact I. Qed.

Theorem C58_query_complete (rect : nat -> aabb2 R) fuel ops t a q : legal_history ops -> proper_clears ops ->
  qrun rect fuel qstart ops = QDone (t, a) -> query_spec rect t (book_run ops) q.
Proof.
  intros L P E. pose proof (runR rect fuel ops _ L (proper_ok ops P) E) as O.
  apply (query_ok rect binvR (t, a) (book_run ops) q binvR_ok); [|exact O]. intros; apply finb_R.
Qed.
Print Assumptions C58_query_complete.

(** binary32: the objects added lie in a box B, and every Clear uses a box around B (with coordinates up to 2^126). *)
Definition stays_inside (rect : nat -> aabb2 f32) (B : aabb2 f32) (ops : list (qop f32)) : Prop :=
  (forall o, In (OpAdd o) ops -> AABB2D_ContainsBox B (rect o) = true /\ finb (rect o)) /\
  (forall mn mx, In (OpClear mn mx) ops -> AABB2D_ContainsBox (Box2 mn mx) B = true /\ modest2 mn /\ modest2 mx).
Lemma inside_ok rect B ops : stays_inside rect B ops -> Forall (okop (okobjF rect B) (okboxF B)) ops.
Proof. intros [P Q]. apply Forall_forall. intros [mn mx|o|o] I; cbn; auto; [now apply Q|now apply P]. Qed.
Lemma stored_added {T} (ops : list (qop T)) : forall bk o, In o (stored (fold_left book_step ops bk)) -> In o (stored bk) \/ In (OpAdd o) ops.
Proof.
  induction ops as [|op ops IH]; intros bk o Io; cbn in *; [auto|]. apply IH in Io. destruct Io as [Io|Io]; [|auto]. destruct op as [mn mx|p|p]; cbn in Io.
  - contradiction.
  - destruct Io as [->|Io]; auto.
  - apply forget_in in Io. left. apply Io.
Qed.
Theorem C58_query_complete_binary32 (rect : nat -> aabb2 f32) B fuel ops t a q : legal_history ops -> stays_inside rect B ops ->
  qrun rect fuel qstart ops = QDone (t, a) -> query_spec rect t (book_run ops) q.
Proof.
  intros L S E. pose proof (runF rect B fuel ops _ L (inside_ok _ _ _ S) E) as O.
  apply (query_ok rect (binvF B) (t, a) (book_run ops) q); [intros b c r (_ & X & Y); auto| |exact O].
  intros o Io. apply stored_added in Io. destruct Io as [[]|Io]. now apply S.
Qed.
Print Assumptions C58_query_complete_binary32.

Definition opsB : list (qop f32) := OpClear (V2 (fz 0) (fz 0)) (V2 (fz 80) (fz 80)) :: adds 17 ++ [OpRemove 3].
Lemma modest_ofZ z : (0 <= z <= 1000)%Z -> modest (fz z).
Proof.
  intros Lz. unfold modest, fz. destruct (ofZ_exact z) as [E F]; [lia|]. rewrite E. split; [exact F|]. rewrite Rabs_pos_eq by (apply IZR_le; lia).
  apply Rle_trans with (bpow radix2 10); [change (bpow radix2 10) with (IZR 1024); apply IZR_le; lia|]. apply bpow_le. lia.
Qed.
Example C58_witness : legal_history opsB /\ stays_inside rectA (Box2 (V2 (fz 0) (fz 0)) (V2 (fz 80) (fz 80))) opsB /\
  (exists t a, qrun rectA 200 qstart opsB = QDone (t, a) /\ length (qnodes t) = 8) /\
  In 16 (stored (book_run opsB)) /\ AABB2D_Intersects (sq 11 11) (rectA 16) = true.
Proof.
  split; [|split; [|split; [|split]]].
  - split; [exact I|]. apply legal_app; [apply legal_dec_adds; [reflexivity|intros o []]|]. cbn. repeat split. intros [].
  - split.
    + intros o Io. assert (X : forallb (fun op => match op with OpAdd o => AABB2D_ContainsBox (Box2 (V2 (fz 0) (fz 0)) (V2 (fz 80) (fz 80))) (rectA o) &&
          is_finite (x2 (min2 (rectA o))) && is_finite (y2 (min2 (rectA o))) && is_finite (x2 (max2 (rectA o))) && is_finite (y2 (max2 (rectA o))) | _ => true end) opsB = true) by (vm_compute; reflexivity).
      apply (proj1 (forallb_forall _ _) X) in Io. do 4 (apply andb_prop in Io; destruct Io as [Io ?]). repeat split; assumption.
    + intros mn mx I0. destruct I0 as [I0|I0].
      * assert (Emn : V2 (fz 0) (fz 0) = mn) by exact (f_equal (fun op => match op with OpClear a0 _ => a0 | _ => mn end) I0). assert (Emx : V2 (fz 80) (fz 80) = mx) by exact (f_equal (fun op => match op with OpClear _ a0 => a0 | _ => mn end) I0). rewrite <- Emn, <- Emx. split; [vm_compute; reflexivity|]. split; split; apply modest_ofZ; lia.
      * exfalso. apply in_app_or in I0. destruct I0 as [I0|[I0|[]]]; [|discriminate]. unfold adds in I0. apply in_map_iff in I0. destruct I0 as (? & ? & _). discriminate.
  - assert (X : match qrun rectA 200 qstart opsB with QDone (t, a) => length (qnodes t) =? 8 | _ => false end = true) by (vm_compute; reflexivity).
    destruct (qrun rectA 200 qstart opsB) as [| | |[t a]]; try discriminate. exists t, a. apply Nat.eqb_eq in X. auto.
  - vm_compute. auto.
  - vm_compute. reflexivity.
Qed.

(** With root growth, rounding moves the centre line of the old root, and a query can miss an object (GrowImpl recomputes the
    centre of the child the old root became, QuadTree.inl:672-691). *)
Definition rectC (o : nat) : aabb2 f32 :=
  if o <? 16 then sq 5000000 5000000
  else if o =? 16 then Box2 (V2 (fz 3845149) (fz 9)) (V2 (f32_lit 15380601 4) (fz 10))
  else sq 8000000 8000000.
Definition opsC : list (qop f32) := OpClear (V2 (f32_lit 17 2) (f32_lit 17 2)) (V2 (fz 7690292) (fz 7690292)) :: adds 18.
Definition queryC : aabb2 f32 := Box2 (V2 (f32_lit 15380601 4) (fz 9)) (V2 (f32_lit 15380601 4) (fz 10)).
Theorem C58_growth_binary32_refuted : exists rect fuel (ops : list (qop f32)) t a q,
  legal_history ops /\ qrun rect fuel qstart ops = QDone (t, a) /\ ~ query_spec rect t (book_run ops) q.
Proof.
  assert (X : match qrun rectC 200 qstart opsC with
    | QDone (t, a) => match QuadTree_AABBQuery (length (qnodes t)) t queryC (fun _ => false) with
        | QDone v => forallb (fun n => match nth_error (qnodes t) n with Some nd => negb (existsb (Nat.eqb 16) (qobjs nd)) | None => true end) v
        | _ => false end
    | _ => false end = true) by (vm_compute; reflexivity).
  destruct (qrun rectC 200 qstart opsC) as [| | |[t a]] eqn:E; try discriminate X. exists rectC, 200, opsC, t, a, queryC.
  split; [split; [exact I|apply legal_dec_adds; [reflexivity|intros o []]]|]. split; [exact E|]. intros (full & _ & _ & Cm & Q).
  rewrite (Q (fun _ => false) _ (le_n _)) in X. rewrite until_false, app_nil_r in X.
  destruct (Cm 16) as (n & In_ & nd & En & Io); [vm_compute; auto 20|vm_compute; reflexivity|].
  apply (proj1 (forallb_forall _ _) X) in In_ as Y || (apply in_rev in In_; apply (proj1 (forallb_forall _ _) X) in In_ as Y).
  rewrite En in Y. apply negb_true_iff in Y. assert (Z : existsb (Nat.eqb 16) (qobjs nd) = true) by (apply existsb_exists; exists 16; auto). congruence.
Qed.
Print Assumptions C58_growth_binary32_refuted.

(** ** C59 *)
(** Rectangles that overlap in more than a point or an edge. *)
Definition overlaps {T} {NT : Num T} (a b : aabb2 T) : Prop :=
  nltb (x2 (min2 b)) (x2 (max2 a)) = true /\ nltb (y2 (min2 b)) (y2 (max2 a)) = true /\
  nltb (x2 (min2 a)) (x2 (max2 b)) = true /\ nltb (y2 (min2 a)) (y2 (max2 b)) = true.
Definition pairs_spec {T} {NT : Num T} (rect : nat -> aabb2 T) (t : qt (T := T)) (bk : book) (q : aabb2 T) : Prop :=
  forall fuel, length (qnodes t) <= fuel -> exists ps, QuadTree_CollidingPairsQuery rect fuel t q = QDone ps /\
    NoDup ps /\ (forall o p, In (o, p) ps -> ~ In (p, o) ps) /\
    (forall o p, In (o, p) ps -> In o (stored bk) /\ In p (stored bk) /\ o <> p /\ AABB2D_Intersects (rect o) (rect p) = true /\ AABB2D_Intersects q (rect o) = true) /\
    (forall o p, In o (stored bk) -> In p (stored bk) -> o <> p -> overlaps (rect o) (rect p) ->
       AABB2D_Intersects q (rect o) = true -> AABB2D_Intersects q (rect p) = true -> In (o, p) ps \/ In (p, o) ps).
Lemma pairs_ok {T} {NT : Num T} {OL : OrdLaws T} {SL : SubLaws T} (rect : nat -> aabb2 T) (binv : aabb2 T -> v2 T -> v2 T -> Prop) s bk q :
  (forall b c r, binv b c r -> okv c /\ finv r) -> (forall o, In o (stored bk) -> finb (rect o)) ->
  okstate (sideOf rect) linkOf binv (inbOf rect) s bk -> pairs_spec rect (fst s) bk q.
Proof.
  intros Bi Fi [Of Ot On] fuel Lf. destruct (cleared bk) eqn:Ec.
  - destruct (Ot eq_refl) as (tree & O & V & P). set (t := fst s) in *.
    destruct (pairs_all rect t (snd s) tree q fuel O Lf) as (ps & E & Nd & Hi). exists ps. split; [exact E|]. split; [exact Nd|].
    split; [|split].
    + intros o p I1 I2. apply Hi in I1, I2. destruct I1 as (j & d & l & _ & A & I1), I2 as (j' & d' & l' & _ & A' & I2).
      exact (pairs_once rect t (snd s) tree q o p j d l j' d' l' O A A' I1 I2).
    + intros o p I1. apply Hi in I1. destruct I1 as (j & d & l & _ & A & I1).
      destruct (pairs_sound rect t (snd s) tree q o p j d l O A I1) as (Io & Ip & N & X & Y).
      split; [now apply (Permutation_in _ P)|]. split; [now apply (Permutation_in _ P)|]. auto.
    + intros o p Io Ip N Ov Qo Qp. pose proof (Fi o Io) as Fo. pose proof (Fi p Ip) as Fp.
      apply (Permutation_in _ (Permutation_sym P)) in Io, Ip.
      destruct (pairs_complete rect binv Bi t (snd s) tree q o p O V Io Ip N Fo Fp Ov Qo Qp) as (j & d & l & Ij & A & [I1|I1]); [left|right]; apply Hi; eauto 8.
  - destruct (Of eq_refl) as [E1 E2]. exists []. rewrite E1, E2. split; [reflexivity|]. split; [constructor|]. split; [intros o p []|]. split; [intros o p []|]. intros o p [].
Qed.
Theorem C59_pairs (rect : nat -> aabb2 R) fuel ops t a q : legal_history ops -> proper_clears ops ->
  qrun rect fuel qstart ops = QDone (t, a) -> pairs_spec rect t (book_run ops) q.
Proof.
  intros L P E. pose proof (runR rect fuel ops _ L (proper_ok ops P) E) as O.
  apply (pairs_ok rect binvR (t, a) (book_run ops) q binvR_ok); [|exact O]. intros; apply finb_R.
Qed.
Print Assumptions C59_pairs.
Theorem C59_pairs_binary32 (rect : nat -> aabb2 f32) B fuel ops t a q : legal_history ops -> stays_inside rect B ops ->
  qrun rect fuel qstart ops = QDone (t, a) -> pairs_spec rect t (book_run ops) q.
Proof.
  intros L S E. pose proof (runF rect B fuel ops _ L (inside_ok _ _ _ S) E) as O.
  apply (pairs_ok rect (binvF B) (t, a) (book_run ops) q); [intros b c r (_ & X & Y); auto| |exact O].
  intros o Io. apply stored_added in Io. destruct Io as [[]|Io]. now apply S.
Qed.
Print Assumptions C59_pairs_binary32.
(** In this history objects of different nodes overlap. *)
Definition rectD (o : nat) : aabb2 f32 :=
  if o <? 16 then sq (50 + Z.of_nat o) 60 else if o =? 16 then Box2 (V2 (fz 30) (fz 30)) (V2 (fz 70) (fz 70)) else sq 10 10.
Example C59_witness : exists t a ps, qrun rectD 200 qstart opsA = QDone (t, a) /\ length (qnodes t) = 8 /\
  QuadTree_CollidingPairsQuery rectD 8 t (Box2 (V2 (fz 0) (fz 0)) (V2 (fz 80) (fz 80))) = QDone ps /\ length ps = 28 /\
  overlaps (rectD 16) (rectD 2).
Proof.
  assert (X : match qrun rectD 200 qstart opsA with QDone (t, a) => (length (qnodes t) =? 8) &&
     match QuadTree_CollidingPairsQuery rectD 8 t (Box2 (V2 (fz 0) (fz 0)) (V2 (fz 80) (fz 80))) with QDone ps => length ps =? 28 | _ => false end | _ => false end = true) by (vm_compute; reflexivity).
  destruct (qrun rectD 200 qstart opsA) as [| | |[t a]]; try discriminate. apply andb_prop in X. destruct X as [X1 X2].
  destruct (QuadTree_CollidingPairsQuery rectD 8 t _) as [| | |ps] eqn:E; try discriminate X2. exists t, a, ps. apply Nat.eqb_eq in X1, X2.
  split; [reflexivity|]. split; [exact X1|]. split; [exact E|]. split; [exact X2|]. repeat split; vm_compute; reflexivity.
Qed.
(** Rectangles that only touch, on opposite sides of a centre line, are not reported although AABB2D::Intersects holds. *)
Definition rectE (o : nat) : aabb2 f32 := if o <? 16 then sq 39 10 else sq 40 10.
Definition opsE : list (qop f32) := OpClear (V2 (fz 0) (fz 0)) (V2 (fz 80) (fz 80)) :: adds 17.
Theorem C59_touching_refuted : exists rect fuel (ops : list (qop f32)) t a q ps,
  legal_history ops /\ qrun rect fuel qstart ops = QDone (t, a) /\ QuadTree_CollidingPairsQuery rect (length (qnodes t)) t q = QDone ps /\
  In 0 (stored (book_run ops)) /\ In 16 (stored (book_run ops)) /\
  AABB2D_Intersects (rect 0) (rect 16) = true /\ AABB2D_Intersects q (rect 0) = true /\ AABB2D_Intersects q (rect 16) = true /\ ~ In (0, 16) ps /\ ~ In (16, 0) ps.
Proof.
  set (q := Box2 (V2 (fz 0) (fz 0)) (V2 (fz 80) (fz 80))).
  assert (X : match qrun rectE 200 qstart opsE with QDone (t, a) =>
     match QuadTree_CollidingPairsQuery rectE (length (qnodes t)) t q with QDone ps => forallb (fun op => negb ((fst op =? 16) || (snd op =? 16))) ps | _ => false end | _ => false end = true) by (vm_compute; reflexivity).
  destruct (qrun rectE 200 qstart opsE) as [| | |[t a]] eqn:Er; try discriminate X.
  destruct (QuadTree_CollidingPairsQuery rectE (length (qnodes t)) t q) as [| | |ps] eqn:E; try discriminate X. exists rectE, 200, opsE, t, a, q, ps.
  split; [split; [exact I|apply legal_dec_adds; [reflexivity|intros o []]]|]. split; [exact Er|]. split; [exact E|].
  split; [vm_compute; auto 20|]. split; [vm_compute; auto 20|]. split; [vm_compute; reflexivity|]. split; [vm_compute; reflexivity|]. split; [vm_compute; reflexivity|].
  split; intros I0; apply (proj1 (forallb_forall _ _) X) in I0; discriminate.
Qed.
Print Assumptions C59_touching_refuted.

(** ** C60 *)
(** NumNodes is NumLeaves plus NumInnerNodes, inner nodes have four children each, NumObjects counts the stored objects, and
    TreeHeight is the number of nodes on the longest path down from the root; for every scalar type. *)
Theorem C60_counts {T} {NT : Num T} (rect : nat -> aabb2 T) fuel (ops : list (qop T)) t a :
  legal_history ops -> qrun rect fuel qstart ops = QDone (t, a) ->
  QuadTree_NumNodes t = Z.of_nat (QuadTree_NumLeaves t + QuadTree_NumInnerNodes t) /\
  (cleared (book_run ops) = true -> QuadTree_NumLeaves t = 3 * QuadTree_NumInnerNodes t + 1) /\
  QuadTree_NumObjects t = length (stored (book_run ops)).
Proof.
  intros L E. pose proof (any_run rect fuel ops _ L E) as [Of Ot On]. cbn [fst snd] in *.
  destruct (cleared (book_run ops)) eqn:Ec.
  - destruct (Ot eq_refl) as (tree & O & _ & P). pose proof (leaves_inner t a tree O) as LI. pose proof (tree_size t a tree O) as Sz.
    assert (Fo : length (aidx tree) = 4 * QuadTree_NumInnerNodes t + 1).
    { unfold QuadTree_NumInnerNodes. rewrite (counted_tree t a tree _ O). apply (inner_four _ None). apply O. }
    split; [unfold QuadTree_NumNodes; rewrite Sz; lia|]. split; [intros _; lia|].
    unfold QuadTree_NumObjects. rewrite list_sum_flat, (Permutation_length (all_objs t a tree O)). now apply Permutation_length.
  - destruct (Of eq_refl) as [E1 E2]. injection E1 as ->. rewrite E2. repeat split. discriminate.
Qed.
Print Assumptions C60_counts.
Theorem C60_height {T} {NT : Num T} (rect : nat -> aabb2 T) fuel (ops : list (qop T)) t a :
  legal_history ops -> qrun rect fuel qstart ops = QDone (t, a) -> cleared (book_run ops) = true ->
  exists h, 1 <= h /\ (forall fuel', length (qnodes t) <= fuel' -> QuadTree_TreeHeight fuel' t = QDone h) /\
    (exists j, qdeep (qnodes t) (qroot t) (h - 1) j) /\ (forall d j, qdeep (qnodes t) (qroot t) d j -> d < h).
Proof.
  intros L E Ec. pose proof (any_run rect fuel ops _ L E) as [_ Ot _]. cbn [fst snd] in *. destruct (Ot Ec) as (tree & O & _ & P). assert (W := wf_rep _ _ _ (ot_wf _ _ _ O)).
  exists (aheight tree). split; [destruct tree; cbn; lia|]. rewrite <- (ot_root _ _ _ O). split; [|split].
  - intros fuel' Lf. unfold QuadTree_TreeHeight. pose proof (tree_size t a tree O). pose proof (height_size _ _ _ W).
    destruct (qnodes t) as [|n ns] eqn:En; [cbn in *; lia|]. rewrite <- En in *. rewrite <- (ot_root _ _ _ O). apply (height_at _ None); [exact W|lia].
  - now apply (height_deep _ None).
  - intros d j D. now apply (deep_height _ None _ W _ j).
Qed.
Print Assumptions C60_height.

(** The region of a node, and its four children: they point back to it, they cover its region and nothing else, overlap only
    on their edges, and everything stored below child k lies on the k-th side of the centre lines. *)
Definition inRegion (nd : qnode R) (p : v2 R) : Prop :=
  (Rabs (x2 p - x2 (qcenter nd)) <= x2 (qradius nd) /\ Rabs (y2 p - y2 (qcenter nd)) <= y2 (qradius nd))%R.
Definition insideRegion (nd : qnode R) (p : v2 R) : Prop :=
  (Rabs (x2 p - x2 (qcenter nd)) < x2 (qradius nd) /\ Rabs (y2 p - y2 (qcenter nd)) < y2 (qradius nd))%R.
(** Quadrants (0 left top, 1 right top, 2 left bottom, 3 right bottom) as closed quarter planes. *)
Definition quarter (k : nat) (c : v2 R) (b : aabb2 R) : Prop :=
  (if Nat.even k then (x2 (max2 b) <= x2 c)%R else (x2 c <= x2 (min2 b))%R) /\
  (if k <? 2 then (y2 (max2 b) <= y2 c)%R else (y2 c <= y2 (min2 b))%R).
Theorem C60_children_tile (rect : nat -> aabb2 R) fuel ops t a n nd ch :
  legal_history ops -> proper_clears ops -> qrun rect fuel qstart ops = QDone (t, a) ->
  below_root t n -> nth_error (qnodes t) n = Some nd -> qchild nd = Some ch ->
  exists kid : nat -> qnode R,
    (forall k, k < 4 -> nth_error (qnodes t) (ch + k) = Some (kid k) /\ qparent (kid k) = Some n) /\
    (forall p, inRegion nd p <-> exists k, k < 4 /\ inRegion (kid k) p) /\
    (forall p k k', k < 4 -> k' < 4 -> insideRegion (kid k) p -> insideRegion (kid k') p -> k = k') /\
    (forall k n' o, k < 4 -> qreach (qnodes t) (ch + k) n' -> stores t n' o -> quarter k (qcenter nd) (rect o)).
Proof.
  intros L P E Rn En Ec. pose proof (runR rect fuel ops _ L (proper_ok ops P) E) as [Of Ot On]. cbn [fst snd] in *.
  destruct (cleared (book_run ops)) eqn:Eb.
  2:{ destruct (Of eq_refl) as [E1 _]. injection E1 as ->. cbn in En. now destruct n. }
  destruct (Ot eq_refl) as (tree & O & (V & B & _) & _). assert (W := wf_rep _ _ _ (ot_wf _ _ _ O)).
  assert (In_ : In n (aidx tree)) by (unfold below_root in Rn; rewrite <- (ot_root _ _ _ O) in Rn; now apply (reach_in _ None _ W)).
  pose proof (fun k => kids_linked (sideOf rect) linkOf _ None tree W V n nd ch k In_ En Ec) as K.
  exists (fun k => nth (ch + k) (qnodes t) nd).
  assert (K' : forall k, k < 4 -> nth_error (qnodes t) (ch + k) = Some (nth (ch + k) (qnodes t) nd) /\
     qparent (nth (ch + k) (qnodes t) nd) = Some n /\ qcenter (nth (ch + k) (qnodes t) nd) = childc k (qcenter nd) (muls2 (qradius nd) nhalf) /\
     qradius (nth (ch + k) (qnodes t) nd) = muls2 (qradius nd) nhalf).
  { intros k Lk. destruct (K k Lk) as (kd & tk & Ek & Ep & (_ & C0 & R0) & _). rewrite (nth_error_nth _ _ nd Ek). auto. }
  destruct (qcenter nd) as [cx cy] eqn:EC. destruct (qradius nd) as [rx ry] eqn:ER.
  assert (Hh : (nhalf : R) = (/ 2)%R) by (cbn; lra).
  destruct (K' 0) as (A0 & P0 & C0 & R0); [lia|]. destruct (K' 1) as (A1 & P1 & C1 & R1); [lia|].
  destruct (K' 2) as (A2 & P2 & C2 & R2); [lia|]. destruct (K' 3) as (A3 & P3 & C3 & R3); [lia|].
  unfold childc, muls2, add2, sub2 in C0, C1, C2, C3, R0, R1, R2, R3.
  cbn [x2 y2 nadd nsub nmul Num_R] in C0, C1, C2, C3, R0, R1, R2, R3. rewrite Hh in *.
  split; [|split; [|split]].
  - intros k Lk. destruct (K' k Lk) as (X & Y & _). auto.
  - intros [px py]. unfold inRegion. rewrite EC, ER. cbn [x2 y2]. split.
    + intros [H1 H2]. apply Rabs_le_inv in H1, H2. destruct (Rle_dec px cx) as [Lx|Lx], (Rle_dec py cy) as [Ly|Ly].
      * exists 0. split; [lia|]. rewrite C0, R0. cbn [x2 y2]. split; apply Rabs_le; lra.
      * exists 2. split; [lia|]. rewrite C2, R2. cbn [x2 y2]. split; apply Rabs_le; lra.
      * exists 1. split; [lia|]. rewrite C1, R1. cbn [x2 y2]. split; apply Rabs_le; lra.
      * exists 3. split; [lia|]. rewrite C3, R3. cbn [x2 y2]. split; apply Rabs_le; lra.
    + intros (k & Lk & H1 & H2). apply Rabs_le_inv in H1, H2.
      destruct k as [|[|[|[|k]]]]; try lia; rewrite ?C0, ?C1, ?C2, ?C3, ?R0, ?R1, ?R2, ?R3 in *; cbn [x2 y2] in *; split; apply Rabs_le; lra.
  - intros [px py] k k' Lk Lk' [H1 H2] [H1' H2']. apply Rabs_lt_inv in H1, H2, H1', H2'.
    destruct k as [|[|[|[|k]]]], k' as [|[|[|[|k']]]]; try lia; exfalso; rewrite ?C0, ?C1, ?C2, ?C3, ?R0, ?R1, ?R2, ?R3 in *; cbn [x2 y2] in *; lra.
  - intros k n' o Lk Rk (nd' & En' & Io). destruct (K k Lk) as (kd & tk & _ & _ & _ & Rt & Et & Sd). rewrite <- Et in Rk.
    pose proof (reach_in _ _ _ Rt _ Rk) as It.
    assert (Ho : In o (aobjs tk)) by (apply (holds_objs tk n'); apply (holds_iff _ _ _ Rt); split; [exact It|]; unfold objs_at; now rewrite En').
    specialize (Sd o Ho (finb_R _) (conj I I)). unfold quarter. cbn [x2 y2].
    destruct k as [|[|[|[|k]]]]; try lia; cbn [Nat.even Nat.ltb Nat.leb] in *; destruct Sd as [S1 S2]; rewrite Rleb_true in S1, S2; cbn [x2 y2] in *; auto.
Qed.
Print Assumptions C60_children_tile.
(** The root's region is the bounding box, and every stored object lies in it. *)
Theorem C60_root_region (rect : nat -> aabb2 R) fuel ops t a : legal_history ops -> proper_clears ops -> cleared (book_run ops) = true ->
  qrun rect fuel qstart ops = QDone (t, a) ->
  exists nd, nth_error (qnodes t) (qroot t) = Some nd /\ qparent nd = None /\
    (forall p, inRegion nd p <-> (x2 (min2 (qbound t)) <= x2 p <= x2 (max2 (qbound t)) /\ y2 (min2 (qbound t)) <= y2 p <= y2 (max2 (qbound t)))%R) /\
    (forall o, In o (stored (book_run ops)) -> (x2 (min2 (qbound t)) <= x2 (min2 (rect o)) /\ x2 (max2 (rect o)) <= x2 (max2 (qbound t)) /\
       y2 (min2 (qbound t)) <= y2 (min2 (rect o)) /\ y2 (max2 (rect o)) <= y2 (max2 (qbound t)))%R).
Proof.
  intros L P Ec E. pose proof (runR rect fuel ops _ L (proper_ok ops P) E) as [_ Ot _]. cbn [fst snd] in *.
  destruct (Ot Ec) as (tree & O & (V & B & Cn) & Pm). pose proof (rep_root _ _ _ (wf_rep _ _ _ (ot_wf _ _ _ O))) as Er. rewrite (ot_root _ _ _ O) in Er.
  eexists. split; [exact Er|]. split; [reflexivity|]. split.
  - intros p. unfold inRegion. cbn [qcenter qradius]. unfold binvR in B. destruct B as (B1 & B2 & -> & ->).
    assert (Hh : (nhalf : R) = (/ 2)%R) by (cbn; lra).
    unfold muls2, add2, sub2. cbn [x2 y2 nadd nsub nmul Num_R]. rewrite Hh. split.
    + intros [H1 H2]. apply Rabs_le_inv in H1, H2. lra.
    + intros [H1 H2]. split; apply Rabs_le; lra.
  - intros o Io. apply (Permutation_in _ (Permutation_sym Pm)) in Io. apply Cn in Io. unfold inbOf, AABB2D_ContainsBox in Io.
    apply andb_prop in Io. destruct Io as [I0 I4]. apply andb_prop in I0. destruct I0 as [I0 I3]. apply andb_prop in I0. destruct I0 as [I1 I2].
    rewrite Rleb_true in I1, I2, I3, I4. auto.
Qed.
Print Assumptions C60_root_region.
(** A history over the reals with a root growth: the box is [0,2]^2 and the object [3,4]^2. *)
Definition rectR (o : nat) : aabb2 R := Box2 (V2 3%R 3%R) (V2 4%R 4%R).
Definition opsR : list (qop R) := [OpClear (V2 0%R 0%R) (V2 2%R 2%R); OpAdd 7].
Lemma leb_t (x y : R) : (x <= y)%R -> Rleb x y = true. Proof. apply Rleb_true. Qed.
Lemma leb_f (x y : R) : (y < x)%R -> Rleb x y = false. Proof. intros. destruct (Rleb_spec x y); [lra|reflexivity]. Qed.
Lemma ltb_t (x y : R) : (x < y)%R -> Rltb x y = true. Proof. apply Rltb_true. Qed.
Lemma ltb_f (x y : R) : (y <= x)%R -> Rltb x y = false. Proof. intros. destruct (Rltb_spec x y); [lra|reflexivity]. Qed.
Ltac revalb := repeat (first [rewrite leb_t by lra | rewrite leb_f by lra | rewrite ltb_t by lra | rewrite ltb_f by lra]; cbv beta iota).
Lemma Add_grow (rect : nat -> aabb2 R) f t a o q : qnodes t <> [] -> growDirection (qbound t) (rect o) = Some q ->
  QuadTree_Add rect (S f) t a o = qbind (GrowImpl t a (growBound (qbound t) q) q) (fun '(t', a') => QuadTree_Add rect f t' a' o).
Proof. intros N E. cbn [QuadTree_Add]. rewrite E. destruct (qnodes t); [contradiction|reflexivity]. Qed.
Lemma Add_stay (rect : nat -> aabb2 R) f t a o : qnodes t <> [] -> growDirection (qbound t) (rect o) = None ->
  QuadTree_Add rect f t a o = qbind (addAt rect f (qnodes t) a o (qroot t)) (fun '(ns, a') => QDone (Qt ns (qroot t) (qbound t), a')).
Proof. intros N E. destruct f; cbn [QuadTree_Add]; rewrite E; destruct (qnodes t); [contradiction|reflexivity|contradiction|reflexivity]. Qed.
Lemma addAt_inner (rect : nat -> aabb2 R) f ns a o n nd c : nth_error ns n = Some nd -> straddles rect (qcenter nd) o = false -> qchild nd = Some c ->
  addAt rect (S f) ns a o n = addAt rect f ns a o (c + quadrant rect (qcenter nd) o).
Proof. intros E S C. cbn [addAt]. rewrite E, S, C. reflexivity. Qed.
Lemma addAt_leaf (rect : nat -> aabb2 R) f ns a o n nd : nth_error ns n = Some nd -> straddles rect (qcenter nd) o = false -> qchild nd = None -> length (qobjs nd) < 16 ->
  addAt rect (S f) ns a o n = QDone (update ns n (push nd o), set_assoc a o (Some n)).
Proof.
  intros E S C Ln. cbn [addAt]. rewrite E, S, C. cbv zeta. replace (minQuadTreeNodeObjectCount <? length (qobjs nd ++ [o])) with false; [reflexivity|].
  symmetry. apply Nat.ltb_ge. rewrite app_length. cbn. unfold minQuadTreeNodeObjectCount. lia.
Qed.
Example C60_witness : legal_history opsR /\ proper_clears opsR /\ cleared (book_run opsR) = true /\ stored (book_run opsR) = [7] /\
  exists t a, qrun rectR 3 qstart opsR = QDone (t, a) /\ length (qnodes t) = 8 /\ qroot t = 4 /\ a 7 = Some 3 /\
    exists nd, below_root t 4 /\ nth_error (qnodes t) 4 = Some nd /\ qchild nd = Some 0.
Proof.
  split; [cbn; repeat split; intros []|]. split; [intros mn mx [E|[E|[]]]; [injection E as <- <-; cbn; lra|discriminate]|]. split; [reflexivity|]. split; [reflexivity|].
  assert (Hh : (nhalf : R) = (/ 2)%R) by (cbn; lra).
  assert (G1 : growDirection (Box2 (V2 0 0) (V2 2 2))%R (rectR 7) = Some 0).
  { unfold growDirection. cbn [rectR min2 max2 x2 y2 nleb nltb Num_R]. revalb. reflexivity. }
  set (b1 := growBound (Box2 (V2 0 0) (V2 2 2))%R 0). assert (Eb : b1 = (Box2 (V2 0 0) (V2 (2 + (2 - 0)) (2 + (2 - 0))))%R) by reflexivity.
  assert (G2 : growDirection b1 (rectR 7) = None).
  { rewrite Eb. unfold growDirection. cbn [rectR min2 max2 x2 y2 nleb nltb Num_R]. revalb. reflexivity. }
  set (c1 := muls2 (add2 (min2 b1) (max2 b1)) nhalf). set (r1 := sub2 (max2 b1) c1).
  assert (Ec : c1 = V2 2%R 2%R).
  { unfold c1. rewrite Eb, Hh. unfold muls2, add2. cbn [min2 max2 x2 y2 nadd nmul Num_R]. f_equal; lra. }
  assert (Er : muls2 r1 nhalf = V2 1%R 1%R).
  { unfold r1. rewrite Ec, Eb, Hh. unfold muls2, sub2. cbn [min2 max2 x2 y2 nsub nmul Num_R]. f_equal; lra. }
  assert (St : forall z, (2 <= z <= 3)%R -> straddles rectR (V2 z z) 7 = false).
  { intros z Hz. unfold straddles, Min, Max. cbn [rectR min2 max2 x2 y2 nleb nltb nsub n0 Num_R nlit]; change (Rlit 0 1) with 0%R.
    repeat match goal with |- context [if Rltb ?a ?b then _ else _] => destruct (Rltb_spec a b) | |- context [if Rleb ?a ?b then _ else _] => destruct (Rleb_spec a b) end;
    try (exfalso; lra); apply ltb_f; rewrite ?Rlit_0; lra. }
  assert (Qd : quadrant rectR (V2 2%R 2%R) 7 = 3).
  { unfold quadrant. cbn [rectR min2 max2 x2 y2 nleb nltb nsub n0 Num_R nlit]; change (Rlit 0 1) with 0%R. revalb. reflexivity. }
  set (nd := fun p c => @QN R (Some p) None [] c (V2 1 1)%R).
  set (t := Qt [nd 4 (V2 1 1)%R; nd 4 (V2 3 1)%R; nd 4 (V2 1 3)%R; QN (Some 4) None [7] (V2 3 3)%R (V2 1 1)%R; QN None (Some 0) [] c1 r1;
      QN None None [] (V2 n0 n0) (V2 n0 n0); QN None None [] (V2 n0 n0) (V2 n0 n0); QN None None [] (V2 n0 n0) (V2 n0 n0)] 4 b1).
  exists t, (set_assoc (fun _ => None) 7 (Some 3)).
  split; [|split; [reflexivity|split; [reflexivity|split; [reflexivity|eexists; split; [constructor|split; reflexivity]]]]].
  assert (Gr : GrowImpl (QuadTree_Clear (V2 0 0) (V2 2 2))%R (fun _ => None) b1 0 =
    QDone (Qt [nd 4 (V2 1 1)%R; nd 4 (V2 3 1)%R; nd 4 (V2 1 3)%R; nd 4 (V2 3 3)%R; QN None (Some 0) [] c1 r1;
      QN None None [] (V2 n0 n0) (V2 n0 n0); QN None None [] (V2 n0 n0) (V2 n0 n0); QN None None [] (V2 n0 n0) (V2 n0 n0)] 4 b1, fun _ => None)).
  { assert (Cd : childc 0 c1 (muls2 r1 nhalf) = V2 1%R 1%R /\ childc 1 c1 (muls2 r1 nhalf) = V2 3%R 1%R /\ childc 2 c1 (muls2 r1 nhalf) = V2 1%R 3%R /\ childc 3 c1 (muls2 r1 nhalf) = V2 3%R 3%R).
    { rewrite Er, Ec. unfold childc, add2, sub2. cbn [x2 y2 nadd nsub Num_R]. repeat split; f_equal; lra. }
    destruct Cd as (D0 & D1 & D2 & D3). unfold nd.
    set (nd' := fun q => @QN R (Some 4) None [] (childc q c1 (muls2 r1 nhalf)) (muls2 r1 nhalf)).
    transitivity (QDone (Qt [nd' 0; nd' 1; nd' 2; nd' 3; QN None (Some 0) [] c1 r1;
      QN None None [] (V2 n0 n0) (V2 n0 n0); QN None None [] (V2 n0 n0) (V2 n0 n0); QN None None [] (V2 n0 n0) (V2 n0 n0)] 4 b1, fun _ : nat => @None nat)); [reflexivity|].
    unfold nd'. rewrite D0, D1, D2, D3, Er. reflexivity. }
  unfold opsR. cbn [qrun qstep qbind fst snd]. change (snd qstart) with (fun _ : nat => @None nat). rewrite (Add_grow _ _ _ _ _ 0) by (exact G1 || discriminate).
  change (growBound _ 0) with b1. rewrite Gr. cbn [qbind]. rewrite Add_stay by (exact G2 || discriminate). cbn [qroot qnodes qbound].
  rewrite (addAt_inner _ _ _ _ _ 4 (QN None (Some 0) [] c1 r1) 0); [|reflexivity|cbn [qcenter]; rewrite Ec; apply St; lra|reflexivity].
  cbn [qcenter]. replace (quadrant rectR c1 7) with 3 by (rewrite Ec; now rewrite Qd). rewrite (addAt_leaf _ _ _ _ _ _ (nd 4 (V2 3 3)%R)); [|reflexivity|apply St; cbn; lra|reflexivity|cbn; lia].
  cbn [qbind]. reflexivity.
Qed.

(** The root grows towards the rectangle it is to take in: the side the rectangle overhangs moves out by the extent of the
    box, and the opposite side stays. *)
Theorem C57_growth_towards (b ob : aabb2 R) (q : nat) : (x2 (min2 b) < x2 (max2 b))%R -> (y2 (min2 b) < y2 (max2 b))%R -> growDirection b ob = Some q ->
  let g := growBound b q in
  ((x2 (min2 ob) < x2 (min2 b))%R -> (x2 (min2 g) = x2 (min2 b) - (x2 (max2 b) - x2 (min2 b)))%R /\ x2 (max2 g) = x2 (max2 b)) /\
  ((x2 (min2 b) <= x2 (min2 ob))%R -> (x2 (max2 b) < x2 (max2 ob))%R -> (x2 (max2 g) = x2 (max2 b) + (x2 (max2 b) - x2 (min2 b)))%R /\ x2 (min2 g) = x2 (min2 b)) /\
  ((y2 (min2 ob) < y2 (min2 b))%R -> (y2 (min2 g) = y2 (min2 b) - (y2 (max2 b) - y2 (min2 b)))%R /\ y2 (max2 g) = y2 (max2 b)) /\
  ((y2 (min2 b) <= y2 (min2 ob))%R -> (y2 (max2 b) < y2 (max2 ob))%R -> (y2 (max2 g) = y2 (max2 b) + (y2 (max2 b) - y2 (min2 b)))%R /\ y2 (min2 g) = y2 (min2 b)).
Proof.
  intros W H G. cbv zeta. revert G. unfold growDirection, growBound. cbn [nleb nltb nadd nsub Num_R].
  repeat match goal with |- context [Rleb ?a ?b] => destruct (Rleb_spec a b) | |- context [Rltb ?a ?b] => destruct (Rltb_spec a b) end;
    intros G; try discriminate; injection G as <-; cbn [min2 max2 x2 y2]; repeat split; lra.
Qed.
Print Assumptions C57_growth_towards.
Example C57_growth_towards_witness : growDirection (Box2 (V2 0 0) (V2 4 4))%R (Box2 (V2 (-1) (-1)) (V2 1 1))%R = Some 3.
Proof. unfold growDirection. cbn [min2 max2 x2 y2 nleb nltb Num_R]. revalb. reflexivity. Qed.
