(** Lemmas on face lists. *)
From Coq Require Import ZArith Bool List Lia Sorted Permutation.
From Verif Require Import PolyTopoModel PolyTopoSpec.
Import ListNotations.
Ltac Zify.zify_post_hook ::= idtac.
Local Open Scope Z_scope.

Lemma edge_ltb_lex a b : edge_ltb a b = true <-> lex a b.
Proof. unfold edge_ltb, lex. rewrite orb_true_iff, andb_true_iff, !Z.ltb_lt, Z.eqb_eq. tauto. Qed.
Lemma edge_eqb_eq a b : edge_eqb a b = true <-> a = b.
Proof. destruct a as (a1 & a2), b as (b1 & b2). unfold edge_eqb. cbn. rewrite andb_true_iff, !Z.eqb_eq. split; [intros (-> & ->); reflexivity|intros E; injection E; auto]. Qed.
Lemma lex_total a b : lex a b \/ a = b \/ lex b a.
Proof. destruct a as (a1 & a2), b as (b1 & b2). unfold lex. cbn. destruct (Z.lt_trichotomy a1 b1) as [H|[H|H]]; [auto| |auto]. destruct (Z.lt_trichotomy a2 b2) as [K|[K|K]]; [auto| |auto]. subst. auto. Qed.
Lemma lex_trans a b c : lex a b -> lex b c -> lex a c.
Proof. unfold lex. lia. Qed.
Lemma lex_irr a : ~ lex a a.
Proof. unfold lex. lia. Qed.
Lemma setFind_in e s : setFind e s = true <-> In e s.
Proof. unfold setFind. rewrite existsb_exists. split; [intros (x & I & E); apply edge_eqb_eq in E; now subst|intros I; exists e; split; [exact I|now apply edge_eqb_eq]]. Qed.
Lemma setFind_out e s : setFind e s = false <-> ~ In e s.
Proof. rewrite <- setFind_in. destruct (setFind e s); split; congruence. Qed.
Lemma setInsert_in x e s : In x (setInsert e s) <-> x = e \/ In x s.
Proof.
  induction s as [|y s IH]; cbn [setInsert]; [cbn; split; [intros [H|[]]; auto|intros [H|[]]; auto]|]. destruct (edge_ltb e y) eqn:E1; [cbn; split; intros [H|H]; auto|]. destruct (edge_ltb y e) eqn:E2; [cbn; rewrite IH; tauto|].
  destruct (lex_total e y) as [L|[L|L]]; [apply edge_ltb_lex in L; congruence| |apply edge_ltb_lex in L; congruence]. subst. cbn. split; [tauto|intros [H|H]; [left; now symmetry|exact H]].
Qed.
Lemma setInsert_sorted e s : StronglySorted lex s -> StronglySorted lex (setInsert e s).
Proof.
  intros H. induction H as [|y s H IH F]; cbn [setInsert]; [repeat constructor|]. destruct (edge_ltb e y) eqn:E1.
  - apply edge_ltb_lex in E1. constructor; [now constructor|]. constructor; [exact E1|]. rewrite Forall_forall in *. intros z Z. exact (lex_trans _ _ _ E1 (F z Z)).
  - destruct (edge_ltb y e) eqn:E2; [|now constructor]. apply edge_ltb_lex in E2. constructor; [exact IH|]. rewrite Forall_forall in *. intros z Z. apply setInsert_in in Z as [-> |Z]; auto.
Qed.
Lemma sorted_nodup s : StronglySorted lex s -> NoDup s.
Proof. induction 1 as [|y s H IH F]; constructor; [|exact IH]. intros I. rewrite Forall_forall in F. exact (lex_irr _ (F y I)). Qed.
Lemma inserts_in {A : Type} (g : A -> edge) x es s : In x (fold_left (fun s e => setInsert (g e) s) es s) <-> In x (map g es) \/ In x s.
Proof. revert s. induction es as [|e es IH]; intros s; cbn; [tauto|]. rewrite IH, setInsert_in. intuition. Qed.
Lemma inserts_sorted {A : Type} (g : A -> edge) es s : StronglySorted lex s -> StronglySorted lex (fold_left (fun s e => setInsert (g e) s) es s).
Proof. revert s. induction es as [|e es IH]; intros s H; cbn; [exact H|]. apply IH. now apply setInsert_sorted. Qed.

(** ** The loop over the vertices of a face lists the directed edges, starting with the last one. *)
Lemma last_any {A : Type} (a b x : A) l : last (x :: l) a = last (x :: l) b.
Proof. revert x. induction l as [|y l IH]; intros x; [reflexivity|]. cbn [last] in *. apply IH. Qed.
Lemma edgesFrom_app x l y : edgesFrom x (l ++ [y]) = edgesFrom x l ++ [(last l x, y)].
Proof.
  revert x. induction l as [|a l IH]; intros x; [reflexivity|]. cbn [edgesFrom app]. rewrite IH. assert (E : last (a :: l) x = last l a) by (destruct l as [|z l]; [reflexivity|exact (last_any x a z l)]). rewrite E. reflexivity.
Qed.
Lemma nth_map_seq {A : Type} (g : nat -> A) n i d : (i < n)%nat -> nth i (map g (seq 0 n)) d = g i.
Proof. intros H. rewrite (nth_indep _ d (g 0%nat)) by now rewrite map_length, seq_length. rewrite map_nth, seq_nth by exact H. reflexivity. Qed.
Lemma directed_cons x l : directed (x :: l) = edgesFrom x (l ++ [x]).
Proof.
  unfold directed. apply nth_ext with (d := (0, 0)) (d' := (0, 0)).
  - rewrite map_length, seq_length. assert (L : forall y m, length (edgesFrom y m) = length m) by (intros y m; revert y; induction m as [|a m IH]; intros y; cbn; auto). rewrite L, app_length. cbn. lia.
  - intros i Hi. rewrite map_length, seq_length in Hi. rewrite nth_map_seq by exact Hi.
    assert (G : forall m y j, (j < length m)%nat -> nth j (edgesFrom y m) (0, 0) = (nth j (y :: m) 0, nth j m 0)).
    { induction m as [|a m IH]; intros y j J; cbn in J; [lia|]. destruct j as [|j]; [reflexivity|]. cbn [edgesFrom nth]. rewrite IH by lia. reflexivity. }
    rewrite G by (rewrite app_length; cbn in *; lia). cbn [length] in *. f_equal.
    + change (x :: l ++ [x]) with ((x :: l) ++ [x]). now rewrite app_nth1.
    + destruct (Nat.eq_dec i (length l)) as [-> |N]; [replace (length l + 1)%nat with (S (length l)) by lia; rewrite Nat.mod_same by lia; rewrite app_nth2, Nat.sub_diag by lia; reflexivity|].
      rewrite Nat.mod_small by lia. replace (i + 1)%nat with (S i) by lia. cbn [nth]. rewrite app_nth1 by lia. reflexivity.
Qed.
Lemma faceEdges_perm f : Permutation (faceEdges f) (directed f).
Proof.
  destruct f as [|x l]; [reflexivity|]. rewrite directed_cons. unfold faceEdges. cbn [edgesFrom]. rewrite edgesFrom_app. replace (last (x :: l) x) with (last l x); [apply Permutation_cons_append|]. destruct l; reflexivity.
Qed.
Lemma faceEdges_in f e : In e (faceEdges f) <-> In e (directed f).
Proof. split; apply Permutation_in; [|symmetry]; apply faceEdges_perm. Qed.
Lemma directed_length f : length (directed f) = length f.
Proof. unfold directed. now rewrite map_length, seq_length. Qed.
Lemma directed_vertex f a b : In (a, b) (directed f) -> In a f /\ In b f.
Proof.
  unfold directed. intros I. apply in_map_iff in I as (i & E & I). apply in_seq in I. injection E as <- <-. split; apply nth_In; [lia|]. apply Nat.mod_upper_bound. lia.
Qed.
Lemma directed_at f i : (i < length f)%nat -> In (nth i f 0, nth (Nat.modulo (i + 1) (length f)) f 0) (directed f).
Proof. intros H. unfold directed. apply in_map_iff. exists i. split; [reflexivity|]. apply in_seq. lia. Qed.
Lemma nodup_map_in {A B : Type} (g : A -> B) l : (forall x y, In x l -> In y l -> g x = g y -> x = y) -> NoDup l -> NoDup (map g l).
Proof.
  intros H ND. induction ND as [|x l N ND IH]; cbn; constructor; [|apply IH; intros a b A1 B1; apply H; now right]. intros I. apply in_map_iff in I as (y & E & I). apply N. rewrite <- (H y x (or_intror I) (or_introl eq_refl) E). exact I.
Qed.
Lemma directed_distinct f : NoDup f -> NoDup (directed f).
Proof.
  intros ND. unfold directed. apply nodup_map_in; [|apply seq_NoDup]. intros i j I J E. apply in_seq in I, J. injection E as E _. eapply NoDup_nth; [exact ND|lia|lia|exact E].
Qed.
Lemma directed_loop f a b : NoDup f -> (2 <= length f)%nat -> In (a, b) (directed f) -> a <> b.
Proof.
  intros ND L I. unfold directed in I. apply in_map_iff in I as (i & E & I). apply in_seq in I. injection E as <- <-. intros E. eapply NoDup_nth in E; [|exact ND|lia|apply Nat.mod_upper_bound; lia].
  destruct (Nat.eq_dec (i + 1) (length f)) as [K|K]; [rewrite K, Nat.mod_same in E; lia|rewrite Nat.mod_small in E; lia].
Qed.
(** In a face with different vertices every vertex has one edge in and one out. *)
Lemma directed_out f a : In a f -> exists b, In (a, b) (directed f).
Proof. intros I. apply (In_nth _ _ 0) in I as (i & L & <-). eexists. now apply directed_at. Qed.
Lemma directed_in f b : In b f -> exists a, In (a, b) (directed f).
Proof.
  intros I. apply (In_nth _ _ 0) in I as (i & L & <-). destruct i as [|i].
  - exists (nth (length f - 1) f 0). pose proof (directed_at f (length f - 1) ltac:(lia)) as H. replace (length f - 1 + 1)%nat with (length f) in H by lia. rewrite Nat.mod_same in H by lia. exact H.
  - exists (nth i f 0). pose proof (directed_at f i ltac:(lia)) as H. replace (i + 1)%nat with (S i) in H by lia. rewrite Nat.mod_small in H by lia. exact H.
Qed.
(** ** The reversed face has the reversed edges. *)
Definition rv (e : Z * Z) : Z * Z := (snd e, fst e).
Lemma rv_rv e : rv (rv e) = e. Proof. now destruct e. Qed.
Lemma directed_rev f : Permutation (directed (rev f)) (map rv (directed f)).
Proof.
  assert (G : forall l x z, edgesFrom z (rev l ++ [x]) = rev (map rv (edgesFrom x (l ++ [z])))).
  { induction l as [|a l IH]; intros x z; [reflexivity|]. cbn [rev app edgesFrom map]. rewrite <- IH. rewrite (edgesFrom_app z (rev l ++ [a]) x), last_last. reflexivity. }
  destruct f as [|x l]; [reflexivity|]. assert (R : exists z m, rev (x :: l) = z :: m /\ rev m ++ [z] = x :: l) by (destruct (rev (x :: l)) as [|z m] eqn:E; [apply (f_equal (@length Z)) in E; rewrite rev_length in E; discriminate|exists z, m; split; [reflexivity|apply (f_equal (@rev Z)) in E; rewrite rev_involutive in E; cbn in E; now rewrite E]]).
  destruct R as (z & m & E1 & E2). rewrite E1. rewrite directed_cons. pose proof (G (rev m) z z) as G1. rewrite rev_involutive in G1. rewrite G1. apply Permutation_trans with (map rv (edgesFrom z (rev m ++ [z]))); [symmetry; apply Permutation_rev|]. apply Permutation_map. rewrite E2, directed_cons. cbn [edgesFrom]. rewrite edgesFrom_app.
  replace z with (last l x); [apply Permutation_cons_append|]. apply (f_equal (fun k => last k x)) in E2. rewrite last_last in E2. rewrite E2. destruct l; reflexivity.
Qed.
(** ** The swap loop reverses. *)
Lemma setAt_spec {A : Type} (l : list A) i x k : (i < length l)%nat -> nth_error (setAt l i x) k = if Nat.eqb k i then Some x else nth_error l k.
Proof.
  revert l k. induction i as [|i IH]; intros l k H; destruct l as [|a l]; cbn in H; try lia.
  - unfold setAt. cbn. destruct k; reflexivity.
  - unfold setAt in *. cbn [skipn firstn]. destruct (skipn i l) as [|b r] eqn:E; [apply (f_equal (@length A)) in E; rewrite skipn_length in E; cbn in E; lia|]. destruct k as [|k]; [reflexivity|]. cbn [app nth_error Nat.eqb]. specialize (IH l k ltac:(lia)). rewrite E in IH. exact IH.
Qed.
Lemma setAt_length {A : Type} (l : list A) i x : length (setAt l i x) = length l.
Proof. unfold setAt. destruct (skipn i l) as [|b r] eqn:E; [reflexivity|]. rewrite <- (firstn_skipn i l) at 2. rewrite !app_length, E. reflexivity. Qed.
Lemma swapAt_length {A : Type} (l : list A) i j : length (swapAt l i j) = length l.
Proof. unfold swapAt. destruct (nth_error l i); [|reflexivity]. destruct (nth_error l j); [|reflexivity]. now rewrite !setAt_length. Qed.
Lemma swapAt_spec {A : Type} (l : list A) i j k : (i < length l)%nat -> (j < length l)%nat -> nth_error (swapAt l i j) k = if Nat.eqb k j then nth_error l i else if Nat.eqb k i then nth_error l j else nth_error l k.
Proof.
  intros I J. unfold swapAt. destruct (nth_error l i) as [a|] eqn:Ei; [|apply nth_error_None in Ei; lia]. destruct (nth_error l j) as [b|] eqn:Ej; [|apply nth_error_None in Ej; lia].
  rewrite setAt_spec by (rewrite setAt_length; exact J). destruct (Nat.eqb k j); [reflexivity|]. rewrite setAt_spec by exact I. reflexivity.
Qed.
Lemma flipLoop_spec {A : Type} : forall k i (l : list A), (2 * (i + k) <= length l)%nat -> length (flipLoop k i l) = length l /\
  forall j, (j < length l)%nat -> nth_error (flipLoop k i l) j = if (Nat.leb i j && Nat.ltb j (i + k) || Nat.leb i (length l - 1 - j) && Nat.ltb (length l - 1 - j) (i + k))%bool then nth_error l (length l - 1 - j) else nth_error l j.
Proof.
  induction k as [|k IH]; intros i l H; cbn [flipLoop].
  - split; [reflexivity|]. intros j J. replace (Nat.leb i j && Nat.ltb j (i + 0))%bool with false by (destruct (Nat.leb_spec i j); [destruct (Nat.ltb_spec j (i + 0)); [lia|reflexivity]|reflexivity]).
    replace (Nat.leb i (length l - 1 - j) && Nat.ltb (length l - 1 - j) (i + 0))%bool with false; [reflexivity|]. destruct (Nat.leb_spec i (length l - 1 - j)); [destruct (Nat.ltb_spec (length l - 1 - j) (i + 0)); [lia|reflexivity]|reflexivity].
  - destruct (IH (S i) (swapAt l i (length l - 1 - i))) as (L & S); [rewrite swapAt_length; lia|]. rewrite swapAt_length in L, S. split; [exact L|]. intros j J. rewrite S by exact J. clear S L IH. rewrite !swapAt_spec by lia.
    repeat match goal with |- context [Nat.leb ?a ?b] => destruct (Nat.leb_spec a b) | |- context [Nat.ltb ?a ?b] => destruct (Nat.ltb_spec a b) | |- context [Nat.eqb ?a ?b] => destruct (Nat.eqb_spec a b) end; cbn [andb orb]; try reflexivity; try lia; try (f_equal; lia).
Qed.
Lemma FlipFace_rev f : FlipFace f = rev f.
Proof.
  unfold FlipFace. assert (H : (2 * (0 + Nat.div (length f) 2) <= length f)%nat) by (pose proof (Nat.div_mod (length f) 2 ltac:(lia)); lia). destruct (flipLoop_spec (Nat.div (length f) 2) 0 f H) as (L & S).
  assert (G : forall (l1 l2 : list Z), length l1 = length l2 -> (forall j, (j < length l1)%nat -> nth_error l1 j = nth_error l2 j) -> l1 = l2).
  { induction l1 as [|a l1 IH]; intros [|b l2] E K; try discriminate; [reflexivity|]. f_equal; [specialize (K 0%nat ltac:(cbn; lia)); cbn in K; congruence|]. apply IH; [now injection E|]. intros j J. apply (K (Datatypes.S j)). cbn. lia. }
  apply G; [now rewrite rev_length|]. intros j J. rewrite L in J. rewrite S by exact J. assert (RV : nth_error (rev f) j = nth_error f (length f - 1 - j)) by (rewrite (nth_error_nth' (rev f) 0) by (rewrite rev_length; lia); rewrite rev_nth by lia; rewrite (nth_error_nth' f 0) by lia; do 2 f_equal; lia).
  rewrite RV. cbn [Nat.add]. replace (Nat.leb 0 j) with true by (symmetry; now apply Nat.leb_le; lia). replace (Nat.leb 0 (length f - 1 - j)) with true by (symmetry; now apply Nat.leb_le; lia). cbn [andb].
  destruct (Nat.ltb_spec j (Nat.div (length f) 2)); [reflexivity|]. destruct (Nat.ltb_spec (length f - 1 - j) (Nat.div (length f) 2)); [reflexivity|]. cbn [orb]. f_equal. pose proof (Nat.div_mod (length f) 2 ltac:(lia)). pose proof (Nat.mod_upper_bound (length f) 2 ltac:(lia)). lia.
Qed.
