(** * C96: the clean-up passes of Polyhedron: degenerate faces, unused vertices, canonical order, face lookup *)
From Coq Require Import ZArith Bool List Lia Sorted Permutation.
From Verif Require Import PolyTopoModel PolyTopoSpec PolyTopoProofs PolyTopoProps.
Import ListNotations.
Ltac Zify.zify_post_hook ::= idtac.
Local Open Scope Z_scope.

Lemma list_ext {A : Type} (l m : list A) : length l = length m -> (forall j, (j < length l)%nat -> nth_error l j = nth_error m j) -> l = m.
Proof.
  revert m. induction l as [|a l IH]; intros [|b m] E K; try discriminate; [reflexivity|]. f_equal; [specialize (K 0%nat ltac:(cbn; lia)); cbn in K; congruence|]. apply IH; [now injection E|]. intros j J. apply (K (S j)). cbn. lia.
Qed.
Lemma setAt_app {A : Type} (l r : list A) y x : setAt (l ++ y :: r) (length l) x = l ++ x :: r.
Proof. unfold setAt. rewrite skipn_app, skipn_all, Nat.sub_diag. cbn. now rewrite firstn_app, firstn_all, Nat.sub_diag, app_nil_r. Qed.
(** ** Degenerate faces *)
Lemma degenerateLoop_spec : forall (tl kept junk : list face), degenerateLoop (length tl) (length kept + length junk) (length kept) (kept ++ junk ++ tl) = kept ++ filter (fun f => Nat.leb 3 (length f)) tl.
Proof.
  induction tl as [|x tl IH]; intros kept junk; cbn [length degenerateLoop filter].
  - rewrite !app_nil_r. rewrite firstn_app, firstn_all, Nat.sub_diag. cbn. now rewrite app_nil_r.
  - replace (nth_error (kept ++ junk ++ x :: tl) (length kept + length junk)) with (Some x) by (rewrite !nth_error_app2 by lia; replace (length kept + length junk - length kept - length junk)%nat with 0%nat by lia; reflexivity).
    destruct (Nat.leb 3 (length x)).
    + destruct junk as [|y junk].
      * replace (Nat.eqb (length kept) (length kept + length [])) with true by (symmetry; apply Nat.eqb_eq; cbn; lia). specialize (IH (kept ++ [x]) []). rewrite app_length in IH. cbn [length app] in IH. rewrite <- !app_assoc in IH. cbn [app] in IH. refine (eq_trans _ IH). cbn [length app]. f_equal; lia.
      * replace (Nat.eqb (length kept) (length kept + length (y :: junk))) with false by (symmetry; apply Nat.eqb_neq; cbn; lia). cbn [app]. rewrite setAt_app. specialize (IH (kept ++ [x]) (junk ++ [x])). rewrite !app_length in IH. cbn [length app] in IH. rewrite <- !app_assoc in IH. cbn [app] in IH. refine (eq_trans _ IH). cbn [length]. f_equal; lia.
    + specialize (IH kept (junk ++ [x])). rewrite app_length in IH. cbn [length] in IH. rewrite <- !app_assoc in IH. cbn [app] in IH. refine (eq_trans _ IH). f_equal. lia.
Qed.
(** The faces with at least three vertices stay, in their order, and nothing else. *)
Theorem C96_degenerate fs : RemoveDegenerateFaces fs = filter (fun f => Nat.leb 3 (length f)) fs /\ forall f, In f (RemoveDegenerateFaces fs) <-> In f fs /\ (3 <= length f)%nat.
Proof.
  assert (E : RemoveDegenerateFaces fs = filter (fun f => Nat.leb 3 (length f)) fs) by exact (degenerateLoop_spec fs [] []). split; [exact E|]. intros f. rewrite E, filter_In, Nat.leb_le. reflexivity.
Qed.
Print Assumptions C96_degenerate.
Example C96_degenerate_witness : RemoveDegenerateFaces [[0; 1]; [0; 1; 2]; []; [3]; [2; 1; 3; 4]; [5; 6]; [7; 8; 9]] = [[0; 1; 2]; [2; 1; 3; 4]; [7; 8; 9]].
Proof. reflexivity. Qed.

(** ** Binary search *)
Lemma sorted_nth (l : list Z) i j a b : StronglySorted Z.lt l -> nth_error l i = Some a -> nth_error l j = Some b -> (i < j)%nat -> a < b.
Proof.
  intros S. revert i j. induction S as [|x l S IH F]; intros i j A B L; [destruct i; discriminate|]. destruct j as [|j]; [lia|]. cbn in B. destruct i as [|i]; [|cbn in A; eapply IH; [exact A|exact B|lia]]. cbn in A. injection A as <-. rewrite Forall_forall in F. apply F. eapply nth_error_In. exact B.
Qed.
Lemma searchLoop_spec l value k : StronglySorted Z.lt l -> nth_error l k = Some value -> forall fuel left right round, (left < k < right)%nat -> (right < length l)%nat -> (right - left <= fuel)%nat -> (round <= 1)%nat -> searchLoop fuel l value left right round = Some (Z.of_nat k).
Proof.
  intros S K. induction fuel as [|fuel IH]; intros left right round B R F RD; [lia|]. cbn [searchLoop]. set (m := Nat.div (left + right + round) 2). set (r' := if Nat.eqb round 0 then 1%nat else 0%nat).
  assert (RD' : (r' <= 1)%nat) by (unfold r'; destruct (Nat.eqb round 0); lia). assert (M : (left < m < right)%nat).
  { unfold m. split; [apply Nat.lt_le_trans with (left + 1)%nat; [lia|apply Nat.div_le_lower_bound; lia]|]. apply Nat.div_lt_upper_bound; lia. }
  destruct (nth_error l m) as [x|] eqn:X; [|apply nth_error_None in X; lia]. destruct (Z.eqb_spec (x - value) 0) as [E|E].
  - f_equal. f_equal. destruct (Nat.lt_trichotomy m k) as [L|[L|L]]; [pose proof (sorted_nth l m k x value S X K L); lia|exact L|pose proof (sorted_nth l k m value x S K X L); lia].
  - destruct (Z.ltb_spec (x - value) 0) as [L|L].
    + assert (m < k)%nat by (destruct (Nat.lt_trichotomy m k) as [Q|[Q|Q]]; [exact Q|subst; rewrite K in X; injection X; lia|pose proof (sorted_nth l k m value x S K X Q); lia]). replace (Nat.ltb m right) with true by (symmetry; apply Nat.ltb_lt; lia). apply IH; lia.
    + assert (k < m)%nat by (destruct (Nat.lt_trichotomy m k) as [Q|[Q|Q]]; [pose proof (sorted_nth l m k x value S X K Q); lia|subst; rewrite K in X; injection X; lia|exact Q]). replace (Nat.ltb left m) with true by (symmetry; apply Nat.ltb_lt; lia). apply IH; lia.
Qed.
(** In a strictly increasing array a value that occurs is found, at its index, in at most as many rounds as the array is long. *)
Theorem C96_search l value k fuel : StronglySorted Z.lt l -> nth_error l k = Some value -> (length l <= fuel)%nat -> ArrayBinarySearch fuel l value = Some (Z.of_nat k).
Proof.
  intros S K F. assert (LK : (k < length l)%nat) by (apply nth_error_Some; congruence). unfold ArrayBinarySearch. destruct (nth_error l 0) as [a|] eqn:A; [|apply nth_error_None in A; lia]. destruct (nth_error l (length l - 1)) as [b|] eqn:B; [|apply nth_error_None in B; lia].
  assert (A1 : (k = 0)%nat \/ a < value) by (destruct k; [now left|right; eapply sorted_nth; [exact S|exact A|exact K|lia]]). assert (B1 : (k = length l - 1)%nat \/ value < b) by (destruct (Nat.eq_dec k (length l - 1)); [now left|right; eapply sorted_nth; [exact S|exact K|exact B|lia]]).
  rewrite Z.gtb_ltb. destruct A1 as [-> |A1].
  - rewrite K in A. injection A as ->. replace (0 <? a - a) with false by (symmetry; apply Z.ltb_ge; lia). replace (a - a =? 0) with true by (symmetry; apply Z.eqb_eq; lia). reflexivity.
  - replace (0 <? a - value) with false by (symmetry; apply Z.ltb_ge; lia). replace (a - value =? 0) with false by (symmetry; apply Z.eqb_neq; lia). destruct B1 as [B1|B1].
    + rewrite <- B1 in B |- *. rewrite K in B. injection B as ->. replace (b - b <? 0) with false by (symmetry; apply Z.ltb_ge; lia). replace (b - b =? 0) with true by (symmetry; apply Z.eqb_eq; lia). reflexivity.
    + replace (b - value <? 0) with false by (symmetry; apply Z.ltb_ge; lia). replace (b - value =? 0) with false by (symmetry; apply Z.eqb_neq; lia). apply searchLoop_spec; try assumption; try lia.
      assert (k <> 0)%nat by (intros ->; rewrite K in A; injection A; lia). assert (k <> length l - 1)%nat by (intros ->; rewrite K in B; injection B; lia). lia.
Qed.
Print Assumptions C96_search.
Example C96_search_witness : StronglySorted Z.lt [2; 3; 5; 8; 13; 21] /\ ArrayBinarySearch 6 [2; 3; 5; 8; 13; 21] 13 = Some 4 /\ ArrayBinarySearch 6 [2; 3; 5; 8; 13; 21] 1 = Some (-1).
Proof. split; [repeat constructor|split; reflexivity]. Qed.
(** A value that is missing from the middle of the array is not reported as missing: the search never stops. *)
Theorem C96_search_refuted : ~ (forall l value, StronglySorted Z.lt l -> l <> [] -> ~ In value l -> exists fuel, ArrayBinarySearch fuel l value = Some (-1)).
Proof.
  intros H. destruct (H [0; 2] 1) as (fuel & E); [repeat constructor|discriminate|cbn; lia|]. unfold ArrayBinarySearch in E. cbn [nth_error length Nat.sub] in E. cbv -[searchLoop] in E.
  assert (G : forall n, searchLoop n [0; 2] 1 0 1 0 = None /\ searchLoop n [0; 2] 1 0 1 1 = None) by (induction n as [|n (I1 & I2)]; [split; reflexivity|split; [exact I2|exact I1]]). destruct (G fuel) as (G1 & _). rewrite G1 in E. discriminate.
Qed.
Print Assumptions C96_search_refuted.

(** ** Unused vertices *)
Lemma zInsert_in x e s : In x (zInsert e s) <-> x = e \/ In x s.
Proof.
  induction s as [|y s IH]; cbn [zInsert]; [cbn; split; [intros [H|[]]; auto|intros [H|[]]; auto]|]. destruct (Z.ltb_spec e y) as [E1|E1]; [cbn; split; intros [H|H]; auto|]. destruct (Z.ltb_spec y e) as [E2|E2]; [cbn; rewrite IH; tauto|]. assert (e = y) by lia. subst. cbn. split; [tauto|intros [H|H]; [left; now symmetry|exact H]].
Qed.
Lemma zInsert_sorted e s : StronglySorted Z.lt s -> StronglySorted Z.lt (zInsert e s).
Proof.
  intros H. induction H as [|y s H IH F]; cbn [zInsert]; [repeat constructor|]. destruct (Z.ltb_spec e y) as [E1|E1].
  - constructor; [now constructor|]. constructor; [exact E1|]. rewrite Forall_forall in *. intros z K. specialize (F z K). lia.
  - destruct (Z.ltb_spec y e) as [E2|E2]; [|now constructor]. constructor; [exact IH|]. rewrite Forall_forall in *. intros z K. apply zInsert_in in K as [-> |K]; auto.
Qed.
Lemma zInserts f s : (forall x, In x (fold_left (fun s x => zInsert x s) f s) <-> In x f \/ In x s) /\ (StronglySorted Z.lt s -> StronglySorted Z.lt (fold_left (fun s x => zInsert x s) f s)).
Proof.
  revert s. induction f as [|y f IH]; intros s; cbn [fold_left]; [cbn; tauto|]. destruct (IH (zInsert y s)) as (I1 & I2). split; [|intros S; apply I2; now apply zInsert_sorted]. intros x. rewrite I1, zInsert_in. cbn. intuition.
Qed.
Lemma usedVertices_spec fs : (forall x, In x (usedVertices fs) <-> exists f, In f fs /\ In x f) /\ StronglySorted Z.lt (usedVertices fs).
Proof.
  unfold usedVertices. assert (G : forall gs s, (forall x, In x (fold_left (fun s f => fold_left (fun s x => zInsert x s) f s) gs s) <-> (exists f, In f gs /\ In x f) \/ In x s) /\ (StronglySorted Z.lt s -> StronglySorted Z.lt (fold_left (fun s f => fold_left (fun s x => zInsert x s) f s) gs s))).
  { induction gs as [|f gs IH]; intros s; cbn [fold_left]; [split; [intros x; split; [tauto|intros [(f & [] & _)|K]; exact K]|tauto]|]. destruct (IH (fold_left (fun s x => zInsert x s) f s)) as (I1 & I2). destruct (zInserts f s) as (J1 & J2). split; [|tauto].
    intros x. rewrite I1, J1. split; [intros [(g & G & K)|[K|K]]; [left; exists g; split; [now right|exact K]|left; exists f; split; [now left|exact K]|now right]|intros [(g & [<- |G] & K)|K]; [right; now left|left; exists g; auto|right; now right]]. }
  destruct (G fs []) as (G1 & G2). split; [|apply G2; constructor]. intros x. rewrite G1. cbn. tauto.
Qed.
Lemma sorted_lower used : StronglySorted Z.lt used -> forall b, (forall x, In x used -> b <= x) -> forall j u, nth_error used j = Some u -> b + Z.of_nat j <= u.
Proof.
  induction 1 as [|x l S IH F]; intros b B j u U; [destruct j; discriminate|]. destruct j as [|j]; cbn in U; [injection U as <-; specialize (B x (or_introl eq_refl)); lia|]. rewrite Forall_forall in F. specialize (IH (b + 1)). assert (B2 : forall y, In y l -> b + 1 <= y) by (intros y Y; specialize (F y Y); specialize (B x (or_introl eq_refl)); lia). specialize (IH B2 j u U). lia.
Qed.
Lemma compact_spec {A : Type} (v0 : list A) : forall used i v, length v = length v0 -> (i + length used <= length v)%nat -> (forall j u, nth_error used j = Some u -> Z.of_nat (i + j) <= u < Z.of_nat (length v)) ->
  (forall j, (i <= j)%nat -> nth_error v j = nth_error v0 j) -> StronglySorted Z.lt used ->
  length (compact used i v) = (i + length used)%nat /\ (forall j, (j < i)%nat -> nth_error (compact used i v) j = nth_error v j) /\ forall j u, nth_error used j = Some u -> nth_error (compact used i v) (i + j) = nth_error v0 (Z.to_nat u).
Proof.
  induction used as [|u used IH]; intros i v L1 L2 B K S; cbn [compact].
  - cbn [length] in *. split; [rewrite firstn_length; lia|]. split; [|intros j u U; destruct j; discriminate]. intros j J. rewrite <- (firstn_skipn i v) at 2. rewrite nth_error_app1; [reflexivity|]. rewrite firstn_length. lia.
  - cbn [length] in L2. pose proof (B 0%nat u eq_refl) as B0. rewrite K by lia. destruct (nth_error v0 (Z.to_nat u)) as [x|] eqn:X; [|apply nth_error_None in X; lia].
    assert (S' : StronglySorted Z.lt used) by (inversion S; assumption).
    destruct (IH (Datatypes.S i) (setAt v i x)) as (H1 & H2 & H3).
    + rewrite setAt_length. exact L1.
    + rewrite setAt_length. lia.
    + intros j w W. rewrite setAt_length. specialize (B (Datatypes.S j) w W). lia.
    + intros j J. rewrite setAt_spec by lia. replace (Nat.eqb j i) with false by (symmetry; apply Nat.eqb_neq; lia). apply K. lia.
    + exact S'.
    + split; [rewrite H1; cbn [length]; lia|]. split.
      * intros j J. rewrite H2 by lia. rewrite setAt_spec by lia. replace (Nat.eqb j i) with false by (symmetry; apply Nat.eqb_neq; lia). reflexivity.
      * intros j w W. destruct j as [|j]; cbn in W; [injection W as <-; rewrite Nat.add_0_r, H2 by lia; rewrite setAt_spec, Nat.eqb_refl by lia; now symmetry|]. replace (i + Datatypes.S j)%nat with (Datatypes.S i + j)%nat by lia. now apply H3.
Qed.
Lemma filter_sub {A B : Type} (g : A -> B) l m : map g l = map g m -> length l = length m.
Proof. intros E. apply (f_equal (@length B)) in E. now rewrite !map_length in E. Qed.
Lemma directed_map (r : Z -> Z) f : directed (map r f) = map (fun e => (r (fst e), r (snd e))) (directed f).
Proof.
  unfold directed. rewrite map_length, map_map. apply map_ext_in. intros i I. apply in_seq in I. cbn. rewrite !(nth_indep (map r f) 0 (r 0)) by (rewrite map_length; try apply Nat.mod_upper_bound; lia). now rewrite !map_nth.
Qed.
Lemma all_directed_map (r : Z -> Z) fs : all_directed (map (map r) fs) = map (fun e => (r (fst e), r (snd e))) (all_directed fs).
Proof. unfold all_directed. induction fs as [|f gs IH]; [reflexivity|]. cbn [map flat_map]. rewrite directed_map, IH, map_app. reflexivity. Qed.
(** The faces keep their shape, each face corner keeps its vertex, the vertices kept are exactly the used ones, in their old order; indices stay
    valid and closedness is kept. *)
Theorem C96_redundant {A : Type} (v : list A) fs : (forall f x, In f fs -> In x f -> 0 <= x < Z.of_nat (length v)) ->
  let r := RemoveRedundantVertices v fs in
  exists ren : Z -> Z,
    snd r = map (map (fun x => Some (ren x))) fs
    /\ (forall f x, In f fs -> In x f -> 0 <= ren x < Z.of_nat (length (fst r)) /\ nth_error (fst r) (Z.to_nat (ren x)) = nth_error v (Z.to_nat x))
    /\ (forall f g x y, In f fs -> In g fs -> In x f -> In y g -> (ren x < ren y <-> x < y))
    /\ (forall j, (j < length (fst r))%nat -> exists f x, In f fs /\ In x f /\ ren x = Z.of_nat j)
    /\ (closed fs -> closed (map (map ren) fs)).
Proof.
  intros H. cbn zeta. unfold RemoveRedundantVertices. cbn [fst snd]. set (used := usedVertices fs). destruct (usedVertices_spec fs) as (U & S). fold used in U, S.
  assert (B : forall j u, nth_error used j = Some u -> Z.of_nat j <= u < Z.of_nat (length v)).
  { intros j u E. assert (I : In u used) by (eapply nth_error_In; exact E). apply U in I as (f & F & X). split; [|apply (H f u F X)]. apply (sorted_lower used S 0); [|exact E]. intros x I. apply U in I as (g & G & Y). apply (H g x G Y). }
  assert (LU : (length used <= length v)%nat).
  { destruct (length used) as [|n] eqn:E; [lia|]. destruct (nth_error used n) as [u|] eqn:N; [|apply nth_error_None in N; lia]. specialize (B n u N). lia. }
  destruct (compact_spec v used 0 v eq_refl ltac:(lia)) as (C1 & _ & C3); [intros j u E; rewrite Nat.add_0_l; now apply B|reflexivity|exact S|]. cbn [Nat.add] in C1, C3. rewrite C1.
  assert (IX : forall x, In x used -> exists j, nth_error used j = Some x /\ (j < length used)%nat /\ ArrayBinarySearch (2 * length used + 2) used x = Some (Z.of_nat j)).
  { intros x X. apply In_nth_error in X as (j & J). exists j. split; [exact J|]. split; [apply nth_error_Some; congruence|]. apply C96_search; [exact S|exact J|lia]. }
  set (ren := fun x => match ArrayBinarySearch (2 * length used + 2) used x with Some k => k | None => 0 end). exists ren.
  assert (RX : forall x, In x used -> exists j, nth_error used j = Some x /\ (j < length used)%nat /\ ren x = Z.of_nat j) by (intros x X; destruct (IX x X) as (j & J1 & J2 & J3); exists j; split; [exact J1|split; [exact J2|unfold ren; now rewrite J3]]).
  assert (MONO : forall x y, In x used -> In y used -> (ren x < ren y <-> x < y)).
  { intros x y X Y. destruct (RX x X) as (i & I1 & I2 & ->), (RX y Y) as (j & J1 & J2 & ->). split; intros L; [apply (sorted_nth used i j x y S I1 J1); lia|]. destruct (Nat.lt_trichotomy i j) as [Q|[Q|Q]]; [lia|subst; rewrite I1 in J1; injection J1; lia|pose proof (sorted_nth used j i y x S J1 I1 Q); lia]. }
  split; [|split; [|split; [|split]]].
  - apply map_ext_in. intros f F. apply map_ext_in. intros x X. destruct (IX x) as (j & _ & _ & E); [apply U; exists f; auto|]. unfold ren. now rewrite E.
  - intros f x F X. destruct (RX x) as (j & J1 & J2 & J3); [apply U; exists f; auto|]. rewrite J3. split; [lia|]. rewrite Nat2Z.id. now apply C3.
  - intros f g x y F G X Y. apply MONO; apply U; [exists f|exists g]; auto.
  - intros j J. destruct (nth_error used j) as [u|] eqn:E; [|apply nth_error_None in E; lia]. assert (I : In u used) by (eapply nth_error_In; exact E). pose proof I as I2. apply U in I2 as (f & F & X). exists f, u. split; [exact F|]. split; [exact X|]. destruct (RX u I) as (i & I1 & I3 & ->). f_equal.
    destruct (Nat.lt_trichotomy i j) as [Q|[Q|Q]]; [pose proof (sorted_nth used i j u u S I1 E Q); lia|exact Q|pose proof (sorted_nth used j i u u S E I1 Q); lia].
  - intros (N & C). assert (AD : all_directed (map (map ren) fs) = map (fun e => (ren (fst e), ren (snd e))) (all_directed fs)).
    { apply all_directed_map. }
    assert (IN : forall a b, In (a, b) (all_directed fs) -> In a used /\ In b used) by (intros a b I; apply all_directed_in in I as (f & F & I); apply directed_vertex in I as (I1 & I2); split; apply U; exists f; auto).
    assert (INJ : forall x y, In x used -> In y used -> ren x = ren y -> x = y) by (intros x y X Y E; pose proof (MONO x y X Y); pose proof (MONO y x Y X); lia).
    unfold closed. rewrite AD. split.
    + apply nodup_map_in; [|exact N]. intros (a & b) (c & d) X Y E. cbn in E. injection E as E1 E2. apply IN in X as (X1 & X2). apply IN in Y as (Y1 & Y2). f_equal; now apply INJ.
    + intros a b I. apply in_map_iff in I as ((c & d) & E & I). cbn in E. injection E as <- <-. apply in_map_iff. exists (d, c). split; [reflexivity|now apply C].
Qed.
Print Assumptions C96_redundant.
Example C96_redundant_witness : RemoveRedundantVertices [10; 11; 12; 13; 14; 15] [[5; 1; 3]; [1; 5; 4]] = ([11; 13; 14; 15], [[Some 3; Some 0; Some 1]; [Some 0; Some 3; Some 2]]).
Proof. reflexivity. Qed.

(** ** Renumbering two vertices *)
(** After [SwapVertices] the vertices i and j have changed places and every face corner still has the vertex it had. *)
Theorem C96_swap {A : Type} (v : list A) fs i j : 0 <= i < Z.of_nat (length v) -> 0 <= j < Z.of_nat (length v) -> (forall f x, In f fs -> In x f -> 0 <= x < Z.of_nat (length v)) ->
  let r := SwapVertices v fs i j in
  length (fst r) = length v /\ nth_error (fst r) (Z.to_nat i) = nth_error v (Z.to_nat j) /\ nth_error (fst r) (Z.to_nat j) = nth_error v (Z.to_nat i)
  /\ map (map (fun x => nth_error (fst r) (Z.to_nat x))) (snd r) = map (map (fun x => nth_error v (Z.to_nat x))) fs.
Proof.
  intros I J H. cbn zeta. unfold SwapVertices. destruct (Z.eqb_spec i j) as [-> |N]; cbn [fst snd]; [tauto|]. split; [apply swapAt_length|]. assert (NN : Z.to_nat i <> Z.to_nat j) by lia.
  assert (E1 : nth_error (swapAt v (Z.to_nat i) (Z.to_nat j)) (Z.to_nat i) = nth_error v (Z.to_nat j)) by (rewrite swapAt_spec by lia; replace (Nat.eqb (Z.to_nat i) (Z.to_nat j)) with false by (symmetry; now apply Nat.eqb_neq); now rewrite Nat.eqb_refl).
  assert (E2 : nth_error (swapAt v (Z.to_nat i) (Z.to_nat j)) (Z.to_nat j) = nth_error v (Z.to_nat i)) by (rewrite swapAt_spec by lia; now rewrite Nat.eqb_refl).
  split; [exact E1|]. split; [exact E2|]. rewrite map_map. apply map_ext_in. intros f F. rewrite map_map. apply map_ext_in. intros x X. specialize (H f x F X). destruct (Z.eqb_spec x i) as [-> |Q1]; [exact E2|]. destruct (Z.eqb_spec x j) as [-> |Q2]; [exact E1|].
  rewrite swapAt_spec by lia. replace (Nat.eqb (Z.to_nat x) (Z.to_nat j)) with false by (symmetry; apply Nat.eqb_neq; lia). replace (Nat.eqb (Z.to_nat x) (Z.to_nat i)) with false by (symmetry; apply Nat.eqb_neq; lia). reflexivity.
Qed.
Print Assumptions C96_swap.
Example C96_swap_witness : SwapVertices [10; 11; 12; 13] TetrahedronFaces 1 3 = ([10; 13; 12; 11], [[0; 3; 2]; [3; 1; 2]; [0; 2; 1]; [0; 1; 3]]).
Proof. reflexivity. Qed.

(** ** The canonical order *)
Lemma cycle_spec n f : (n <= length f)%nat -> cycle n f = skipn n f ++ firstn n f.
Proof.
  revert f. induction n as [|n IH]; intros f L; [cbn; now rewrite app_nil_r|]. destruct f as [|x f]; [cbn in L; lia|]. cbn [cycle]. cbn in L. rewrite IH by (rewrite app_length; cbn; lia). cbn [skipn firstn]. rewrite skipn_app, firstn_app. replace (n - length f)%nat with 0%nat by lia. cbn [skipn firstn]. rewrite app_nil_r, <- app_assoc. reflexivity.
Qed.
Lemma smallest_spec vs : forall pre best x, nth_error (pre ++ vs) best = Some x -> (forall y, In y pre -> x <= y) -> exists z, nth_error (pre ++ vs) (smallest vs (length pre) best x) = Some z /\ forall y, In y (pre ++ vs) -> z <= y.
Proof.
  induction vs as [|w vs IH]; intros pre best x B P; cbn [smallest]; [exists x; split; [exact B|]; rewrite app_nil_r; exact P|]. specialize (IH (pre ++ [w])). rewrite app_length in IH. cbn [length] in IH. replace (length pre + 1)%nat with (S (length pre)) in IH by lia. rewrite <- app_assoc in IH. cbn [app] in IH.
  destruct (Z.ltb_spec w x) as [L|L]; (apply IH; [|intros y Y; apply in_app_iff in Y as [Y|[<- |[]]]; try (specialize (P y Y)); lia]).
  - rewrite nth_error_app2, Nat.sub_diag by lia. reflexivity.
  - exact B.
Qed.
Lemma canonical_face f : f <> [] -> exists l1 l2 z, f = l1 ++ z :: l2 /\ CanonicalFace f = z :: l2 ++ l1 /\ forall y, In y f -> z <= y.
Proof.
  intros NE. destruct f as [|x r]; [congruence|]. destruct (smallest_spec r [x] 0%nat x eq_refl) as (z & Z1 & Z2); [intros y [<- |[]]; lia|]. change ([x] ++ r) with (x :: r) in Z1, Z2. unfold CanonicalFace, smallestIndex. cbn [length] in Z1. set (k := smallest r 1 0 x) in *.
  destruct (nth_error_split _ _ Z1) as (l1 & l2 & E & L). exists l1, l2, z. split; [exact E|]. split; [|exact Z2]. rewrite cycle_spec by (rewrite E, app_length; cbn; lia). rewrite E, <- L. rewrite skipn_app, skipn_all, Nat.sub_diag, firstn_app, firstn_all, Nat.sub_diag. cbn. now rewrite app_nil_r.
Qed.
Lemma canonical_cycle f : same_cycle f (CanonicalFace f).
Proof.
  destruct f as [|x r]; [exists [], []; split; reflexivity|]. destruct (canonical_face (x :: r) ltac:(discriminate)) as (l1 & l2 & z & E & C & _). exists l1, (z :: l2). split; [exact E|exact C].
Qed.
(** Two cyclic shifts of a list without repetitions that both begin with the smallest element are the same list. *)
Lemma cycle_unique (z : Z) (a b : list Z) : NoDup (z :: a) -> same_cycle (z :: a) (z :: b) -> a = b.
Proof.
  intros ND (l1 & l2 & E1 & E2). destruct l1 as [|w l1]; [rewrite app_nil_r in E2; cbn in E1; congruence|]. cbn in E1. injection E1 as <- E1. destruct l2 as [|u l2]; [rewrite app_nil_r in E1; cbn in E2; injection E2 as E2; congruence|]. cbn in E2. injection E2 as <- E2. inversion ND as [|? ? N _]; subst. exfalso. apply N. apply in_app_iff. right. now left.
Qed.
Lemma same_cycle_refl f : same_cycle f f.
Proof. exists f, []. now rewrite app_nil_r. Qed.
Lemma same_cycle_sym f g : same_cycle f g -> same_cycle g f.
Proof. intros (l1 & l2 & -> & ->). exists l2, l1. auto. Qed.
Lemma same_cycle_trans f g h : same_cycle f g -> same_cycle g h -> same_cycle f h.
Proof.
  intros (l1 & l2 & -> & ->) (m1 & m2 & E & ->). apply app_eq_app in E as (l & [(E1 & E2)|(E1 & E2)]); subst.
  - exists (l1 ++ m1), l. rewrite <- !app_assoc. auto.
  - exists l, (m2 ++ l2). rewrite <- !app_assoc. auto.
Qed.
Lemma same_cycle_perm f g : same_cycle f g -> Permutation f g.
Proof. intros (l1 & l2 & -> & ->). apply Permutation_app_comm. Qed.
Lemma canonical_unique f g : NoDup f -> same_cycle f g -> CanonicalFace f = CanonicalFace g.
Proof.
  intros ND S. destruct f as [|x r]; [apply same_cycle_perm in S; apply Permutation_nil in S; now subst|]. pose proof (same_cycle_perm _ _ S) as P. assert (NG : g <> []) by (intros ->; symmetry in P; apply Permutation_nil in P; discriminate).
  destruct (canonical_face (x :: r) ltac:(discriminate)) as (l1 & l2 & z & E & C & M). destruct (canonical_face g NG) as (m1 & m2 & w & E' & C' & M'). pose proof (canonical_cycle (x :: r)) as S1. pose proof (canonical_cycle g) as S2. rewrite C in S1. rewrite C' in S2.
  assert (ZW : z = w). { assert (z <= w) by (apply M; apply (Permutation_in _ (Permutation_sym P)); rewrite E'; apply in_elt). assert (w <= z) by (apply M'; apply (Permutation_in _ P); rewrite E; apply in_elt). lia. }
  subst w. rewrite C, C'. f_equal. apply (cycle_unique z); [apply (Permutation_NoDup (same_cycle_perm _ _ S1)); exact ND|]. apply same_cycle_trans with (x :: r); [now apply same_cycle_sym|]. now apply same_cycle_trans with g.
Qed.
(** The comparison is a total order. *)
Lemma cmpLex_sym a b : length a = length b -> cmpLex b a = - cmpLex a b.
Proof. revert b. induction a as [|x a IH]; intros [|y b] L; try discriminate; [reflexivity|]. cbn. rewrite (Z.eqb_sym y x). destruct (Z.eqb_spec x y); [apply IH; now injection L|lia]. Qed.
Lemma cmpLex_zero a b : length a = length b -> cmpLex a b = 0 -> a = b.
Proof. revert b. induction a as [|x a IH]; intros [|y b] L H; try discriminate; [reflexivity|]. cbn in H. destruct (Z.eqb_spec x y) as [-> |N]; [f_equal; apply IH; [now injection L|exact H]|lia]. Qed.
Lemma cmpLex_trans a b c : length a = length b -> length b = length c -> cmpLex a b <= 0 -> cmpLex b c <= 0 -> cmpLex a c <= 0.
Proof.
  revert b c. induction a as [|x a IH]; intros [|y b] [|z c] L1 L2 H1 H2; try discriminate. cbn in *. destruct (Z.eqb_spec x y) as [-> |N1]; destruct (Z.eqb_spec y z) as [-> |N2].
  - apply IH with b; [now injection L1|now injection L2|exact H1|exact H2].
  - lia.
  - destruct (Z.eqb_spec x z); lia.
  - destruct (Z.eqb_spec x z); lia.
Qed.
Definition face_le (a b : list Z) : Prop := CmpFaces a b <= 0.
Lemma face_total a b : face_le a b \/ face_le b a.
Proof. unfold face_le, CmpFaces. rewrite (Nat.eqb_sym (length b)). destruct (Nat.eqb_spec (length a) (length b)) as [E|E]; [rewrite (cmpLex_sym a b E); lia|lia]. Qed.
Lemma face_antisym a b : face_le a b -> face_le b a -> a = b.
Proof. unfold face_le, CmpFaces. rewrite (Nat.eqb_sym (length b)). destruct (Nat.eqb_spec (length a) (length b)) as [E|E]; [rewrite (cmpLex_sym a b E); intros; apply cmpLex_zero; [exact E|lia]|lia]. Qed.
Lemma face_trans a b c : face_le a b -> face_le b c -> face_le a c.
Proof.
  unfold face_le, CmpFaces. destruct (Nat.eqb_spec (length a) (length b)) as [E1|E1]; destruct (Nat.eqb_spec (length b) (length c)) as [E2|E2]; destruct (Nat.eqb_spec (length a) (length c)) as [E3|E3]; try congruence; try lia. intros H1 H2. exact (cmpLex_trans a b c E1 E2 H1 H2).
Qed.
Lemma selectInner_spec rest : forall cur c r, selectInner cur rest = (c, r) -> Permutation (cur :: rest) (c :: r) /\ (forall x, In x (cur :: rest) -> face_le c x).
Proof.
  induction rest as [|x rest IH]; intros cur c r H; cbn [selectInner] in H; [injection H as <- <-; split; [reflexivity|]; intros y [<- |[]]; unfold face_le; destruct (face_total cur cur); assumption|].
  destruct (Z.gtb_spec (CmpFaces cur x) 0) as [G|G].
  - destruct (selectInner x rest) as (c1 & r1) eqn:E. injection H as <- <-. destruct (IH _ _ _ E) as (P & M). split; [rewrite P; apply perm_swap|]. intros y [<- |Y]; [|now apply M]. apply face_trans with x; [apply M; now left|]. destruct (face_total x cur) as [K|K]; [exact K|]. unfold face_le in K. lia.
  - destruct (selectInner cur rest) as (c1 & r1) eqn:E. injection H as <- <-. destruct (IH _ _ _ E) as (P & M). split; [rewrite perm_swap, P; apply perm_swap|]. intros y [<- |[<- |Y]]; [apply M; now left| |apply M; now right]. apply face_trans with cur; [apply M; now left|unfold face_le; lia].
Qed.
Lemma selectSort_spec n : forall fs, (length fs <= n)%nat -> Permutation fs (selectSort n fs) /\ StronglySorted face_le (selectSort n fs).
Proof.
  induction n as [|n IH]; intros fs L; [destruct fs; [split; constructor|cbn in L; lia]|]. destruct fs as [|c fs]; [split; constructor|]. cbn [selectSort]. destruct (selectInner c fs) as (c1 & r1) eqn:E. destruct (selectInner_spec _ _ _ _ E) as (P & M). assert (LR : (length r1 <= n)%nat) by (apply Permutation_length in P; cbn in P, L; lia). destruct (IH r1 LR) as (P1 & S1).
  split; [rewrite P; now constructor|]. constructor; [exact S1|]. rewrite Forall_forall. intros y Y. apply M. apply (Permutation_in _ (Permutation_sym P)). right. exact (Permutation_in _ (Permutation_sym P1) Y).
Qed.
Lemma sorted_unique l m : StronglySorted face_le l -> StronglySorted face_le m -> Permutation l m -> l = m.
Proof.
  intros S. revert m. induction S as [|x l S IH F]; intros m M P; [now apply Permutation_nil in P|]. destruct M as [|y m M G]; [symmetry in P; apply Permutation_nil in P; discriminate|]. rewrite Forall_forall in *. assert (x = y).
  { assert (Ix : In x (y :: m)) by (apply (Permutation_in _ P); now left). assert (Iy : In y (x :: l)) by (apply (Permutation_in _ (Permutation_sym P)); now left). destruct Ix as [K|Ix]; [now symmetry|]. destruct Iy as [K|Iy]; [exact K|]. apply face_antisym; auto. }
  subst y. f_equal. apply IH; [exact M|]. now apply Permutation_cons_inv in P.
Qed.
(** [CanonicalizeFaceArray] shifts each face cyclically so that its smallest index comes first and orders the faces by [CmpFaces]. *)
Theorem C96_canonical fs : Permutation (map CanonicalFace fs) (CanonicalizeFaceArray fs)
  /\ Forall2 same_cycle fs (map CanonicalFace fs)
  /\ StronglySorted (fun a b => CmpFaces a b <= 0) (CanonicalizeFaceArray fs)
  /\ (forall f, In f (CanonicalizeFaceArray fs) -> forall x, In x f -> hd 0 f <= x).
Proof.
  destruct (selectSort_spec (length (map CanonicalFace fs)) (map CanonicalFace fs) (le_n _)) as (P & S). split; [exact P|]. split; [|split; [exact S|]].
  - clear. induction fs as [|f fs IH]; constructor; [apply canonical_cycle|exact IH].
  - intros f F x X. apply (Permutation_in _ (Permutation_sym P)) in F. apply in_map_iff in F as (g & <- & G). destruct g as [|y r]; [destruct X|]. destruct (canonical_face (y :: r) ltac:(discriminate)) as (l1 & l2 & z & E & C & M). rewrite C in X |- *. cbn [hd]. apply M. rewrite E. apply in_app_iff. destruct X as [<- |X]; [right; now left|]. apply in_app_iff in X as [X|X]; [right; now right|now left].
Qed.
Print Assumptions C96_canonical.
Example C96_canonical_witness : CanonicalizeFaceArray [[3; 1; 2]; [7; 5; 4; 6]; [2; 0; 3]] = [[4; 6; 7; 5]; [0; 3; 2]; [1; 2; 3]].
Proof. reflexivity. Qed.
(** The result does not depend on the order of the faces nor on where each face starts. *)
Theorem C96_canonical_unique fs gs gs' : (forall f, In f fs -> NoDup f) -> Forall2 same_cycle fs gs' -> Permutation gs' gs -> CanonicalizeFaceArray fs = CanonicalizeFaceArray gs.
Proof.
  intros ND F P. destruct (C96_canonical fs) as (P1 & _ & S1 & _). destruct (C96_canonical gs) as (P2 & _ & S2 & _). apply sorted_unique; [exact S1|exact S2|]. rewrite <- P1, <- P2, <- P. assert (E : map CanonicalFace fs = map CanonicalFace gs').
  { clear - ND F. induction F as [|f g fs gs H F IH]; [reflexivity|]. cbn [map]. f_equal; [apply canonical_unique; [apply ND; now left|exact H]|]. apply IH. intros h K. apply ND. now right. }
  now rewrite E.
Qed.
Print Assumptions C96_canonical_unique.
Example C96_canonical_unique_witness : Forall2 same_cycle [[0; 1; 2]; [1; 3; 2]] [[1; 2; 0]; [3; 2; 1]] /\ Permutation [[1; 2; 0]; [3; 2; 1]] [[3; 2; 1]; [1; 2; 0]].
Proof. split; [constructor; [exists [0], [1; 2]; split; reflexivity|constructor; [exists [1], [3; 2]; split; reflexivity|constructor]]|apply perm_swap]. Qed.

(** ** Looking up a face *)
Lemma indexOf_spec x f : forall j, match indexOf x f j with Some k => exists l1 l2, f = l1 ++ x :: l2 /\ k = (j + length l1)%nat /\ ~ In x l1 | None => ~ In x f end.
Proof.
  induction f as [|y f IH]; intros j; cbn [indexOf]; [tauto|]. destruct (Z.eqb_spec y x) as [-> |N]; [exists [], f; split; [reflexivity|]; split; [cbn; lia|tauto]|]. specialize (IH (S j)). destruct (indexOf x f (S j)) as [k|].
  - destruct IH as (l1 & l2 & -> & -> & NI). exists (y :: l1), l2. split; [reflexivity|]. split; [cbn; lia|]. intros [K|K]; [congruence|exact (NI K)].
  - intros [K|K]; [congruence|exact (IH K)].
Qed.
Definition half_turn (f g : list Z) : Prop := exists l1 l2, length l1 = length l2 /\ f = l1 ++ l2 /\ g = l2 ++ l1.
Lemma mod_shift n j s : (s < n)%nat -> (j < n)%nat -> Nat.modulo (j + n - s) n = if Nat.leb s j then (j - s)%nat else (j + n - s)%nat.
Proof.
  intros S J. destruct (Nat.leb_spec s j); [replace (j + n - s)%nat with (j - s + 1 * n)%nat by lia; rewrite Nat.mod_add by lia; apply Nat.mod_small; lia|apply Nat.mod_small; lia].
Qed.
(** [ContainsFace] recognises a face only when it starts at the same vertex, or at the opposite one of an even face. *)
Theorem C96_contains_actual fs f : f <> [] -> (forall g, In g fs -> NoDup g) -> (ContainsFace fs f = true <-> exists g, In g fs /\ (g = f \/ half_turn g f)).
Proof.
  intros NE ND. unfold ContainsFace. rewrite existsb_exists. apply Morphisms_Prop.ex_iff_morphism. intros g. assert (K : In g fs -> (faceMatches g f = true <-> g = f \/ half_turn g f)); [|tauto]. intros G. specialize (ND g G). clear G fs.
  destruct f as [|x f]; [congruence|]. unfold faceMatches. destruct (Nat.eqb_spec (length g) (length (x :: f))) as [L|L]; cbn [negb].
  2: { split; [discriminate|]. intros [-> |(l1 & l2 & _ & -> & E)]; [congruence|]. exfalso. apply L. rewrite E, !app_length. lia. }
  pose proof (indexOf_spec x g 0) as I. destruct (indexOf x g 0) as [s|].
  - destruct I as (l1 & l2 & E & -> & NI). cbn [Nat.add]. set (n := length g) in *. assert (LN : n = (length l1 + S (length l2))%nat) by (unfold n; rewrite E, app_length; cbn; lia). rewrite forallb_forall. split.
    + intros H. assert (H' : forall j, (j < n)%nat -> nth_error g (if Nat.leb (length l1) j then (j - length l1)%nat else (j + n - length l1)%nat) = nth_error (x :: f) j).
      { intros j J. specialize (H j ltac:(apply in_seq; lia)). rewrite mod_shift in H by lia. destruct (nth_error g (if Nat.leb (length l1) j then (j - length l1)%nat else (j + n - length l1)%nat)) as [a|]; [|discriminate]. destruct (nth_error (x :: f) j) as [b|]; [|discriminate]. apply Z.eqb_eq in H. now subst. }
      assert (X : nth_error g (length l1) = Some x) by (rewrite E, nth_error_app2, Nat.sub_diag by lia; reflexivity). destruct l1 as [|w l1].
      * left. apply list_ext; [exact L|]. intros j J. rewrite <- (H' j J). cbn. f_equal. lia.
      * right. set (m := length (w :: l1)) in *. assert (ML : m = S (length l1)) by reflexivity. assert (M : (0 < m)%nat) by lia. pose proof (H' 0%nat ltac:(lia)) as H0. replace (Nat.leb m 0) with false in H0 by (symmetry; apply Nat.leb_gt; lia). cbn [nth_error] in H0. cbn [Nat.add] in H0.
        assert (Q : (n - m = m)%nat) by (apply (proj1 (NoDup_nth_error g) ND); [unfold n in *; lia|]; rewrite H0; now symmetry).
        exists (w :: l1), (x :: l2). split; [fold m; cbn [length]; lia|]. split; [exact E|]. symmetry. apply list_ext; [rewrite !app_length; cbn [length] in *; fold m; lia|]. intros j J. rewrite app_length in J. cbn [length] in J. fold m in J. 
        destruct (Nat.leb_spec m j) as [B|B].
        -- specialize (H' j ltac:(lia)). replace (Nat.leb m j) with true in H' by (symmetry; now apply Nat.leb_le). rewrite <- H'. rewrite nth_error_app2 by (cbn [length]; lia). rewrite E, nth_error_app1 by (fold m; lia). f_equal. cbn [length]. lia.
        -- specialize (H' j ltac:(lia)). replace (Nat.leb m j) with false in H' by (symmetry; now apply Nat.leb_gt). rewrite <- H'. rewrite nth_error_app1 by (cbn [length]; lia). rewrite E, nth_error_app2 by (fold m; lia). f_equal. fold m. lia.
    + intros H j J. apply in_seq in J. rewrite mod_shift by lia. destruct H as [-> |(m1 & m2 & LM & E1 & E2)].
      * assert (l1 = []) by (destruct l1 as [|w l1]; [reflexivity|]; cbn in E; injection E as -> E; exfalso; apply NI; now left). subst l1. cbn [length Nat.leb]. rewrite Nat.sub_0_r. destruct (nth_error (x :: f) j) as [a|] eqn:A; [apply Z.eqb_refl|]. apply nth_error_None in A. lia.
      * destruct m2 as [|w m2]; [destruct m1; [discriminate|discriminate]|]. cbn [app] in E2. injection E2 as <- E2. assert (EQ : m1 = l1 /\ x :: m2 = x :: l2).
        { clear - E E1 NI ND. rewrite E1 in E, ND. clear E1. revert l1 E NI. induction m1 as [|a m1 IH]; intros l1 E NI; destruct l1 as [|b l1]; cbn in E.
          - auto.
          - injection E as -> E. exfalso. apply NI. now left.
          - injection E as -> E. exfalso. cbn in ND. inversion ND as [|? ? N _]; subst. apply N. apply in_app_iff. right. now left.
          - injection E as -> E. cbn in ND. inversion ND as [|? ? N N2]; subst. destruct (IH N2 l1 E) as (-> & Q); [intros K; apply NI; now right|]. auto. }
        destruct EQ as (-> & EQ). injection EQ as ->. rewrite E2. change (x :: l2 ++ l1) with ((x :: l2) ++ l1). cbn [length] in LM. rewrite E. destruct (Nat.leb_spec (length l1) j) as [B|B].
        -- rewrite (nth_error_app1 l1) by lia. rewrite nth_error_app2 by (cbn [length]; lia). cbn [length]. replace (j - S (length l2))%nat with (j - length l1)%nat by lia. destruct (nth_error l1 (j - length l1)) as [a|] eqn:A; [apply Z.eqb_refl|]. apply nth_error_None in A. lia.
        -- rewrite (nth_error_app2 l1) by lia. rewrite nth_error_app1 by (cbn [length]; lia). replace (j + n - length l1 - length l1)%nat with j by lia. destruct (nth_error (x :: l2) j) as [a|] eqn:A; [apply Z.eqb_refl|]. apply nth_error_None in A. cbn in A. lia.
  - split; [discriminate|]. intros H. exfalso. apply I. destruct H as [-> |(m1 & m2 & _ & -> & E)]; [now left|]. apply in_app_iff. assert (X : In x (m2 ++ m1)) by (rewrite <- E; now left). apply in_app_iff in X. tauto.
Qed.
Print Assumptions C96_contains_actual.
(** So the face (1,2,0) is not found among the faces of a polyhedron that has (0,1,2). *)
Theorem C96_contains_refuted : ~ (forall fs f, f <> [] -> (forall g, In g fs -> NoDup g) -> (ContainsFace fs f = true <-> exists g, In g fs /\ same_cycle g f)).
Proof.
  intros H. destruct (H [[0; 1; 2]] [1; 2; 0]) as (_ & H2); [discriminate|intros g [<- |[]]; apply distinct_nodup; reflexivity|]. assert (E : ContainsFace [[0; 1; 2]] [1; 2; 0] = true); [|discriminate E]. apply H2. exists [0; 1; 2]. split; [now left|]. exists [0], [1; 2]. split; reflexivity.
Qed.
Print Assumptions C96_contains_refuted.
(** Among canonical faces, as [SetEquals] uses it, the lookup is right. *)
Theorem C96_contains_canonical fs f : f <> [] -> NoDup f -> (forall g, In g fs -> NoDup g) -> (ContainsFace (CanonicalizeFaceArray fs) (CanonicalFace f) = true <-> exists g, In g fs /\ same_cycle g f).
Proof.
  intros NE NF ND. destruct (C96_canonical fs) as (P & _ & _ & _). assert (CN : forall h, h <> [] -> CanonicalFace h <> []) by (intros h K E; pose proof (same_cycle_perm _ _ (canonical_cycle h)) as Q; rewrite E in Q; symmetry in Q; apply Permutation_nil in Q; congruence).
  rewrite C96_contains_actual; [|now apply CN|].
  2: { intros g G. apply (Permutation_in _ (Permutation_sym P)) in G. apply in_map_iff in G as (h & <- & K). apply (Permutation_NoDup (same_cycle_perm _ _ (canonical_cycle h))). now apply ND. }
  split.
  - intros (g & G & K). apply (Permutation_in _ (Permutation_sym P)) in G. apply in_map_iff in G as (h & <- & G). exists h. split; [exact G|]. apply same_cycle_trans with (CanonicalFace f); [|apply same_cycle_sym, canonical_cycle]. apply same_cycle_trans with (CanonicalFace h); [apply canonical_cycle|]. destruct K as [-> |(l1 & l2 & _ & -> & ->)]; [apply same_cycle_refl|exists l1, l2; auto].
  - intros (g & G & K). exists (CanonicalFace g). split; [apply (Permutation_in _ P); now apply in_map|]. left. apply canonical_unique; [now apply ND|exact K].
Qed.
Print Assumptions C96_contains_canonical.
Example C96_contains_witness : ContainsFace BoxFaces [0; 1; 3; 2] = true /\ ContainsFace BoxFaces [3; 2; 0; 1] = true /\ ContainsFace BoxFaces [1; 3; 2; 0] = false /\ ContainsFace (CanonicalizeFaceArray BoxFaces) (CanonicalFace [1; 3; 2; 0]) = true.
Proof. repeat split; reflexivity. Qed.
