(** * C95: the face lists of Polyhedron: closedness, edges, validity, orientation, adjacency *)
From Coq Require Import ZArith Bool List Lia Sorted Permutation.
From Verif Require Import PolyTopoModel PolyTopoSpec PolyTopoProofs.
Import ListNotations.
Ltac Zify.zify_post_hook ::= idtac.
Local Open Scope Z_scope.

Lemma flat_map_perm {A B : Type} (g h : A -> list B) l : (forall x, In x l -> Permutation (g x) (h x)) -> Permutation (flat_map g l) (flat_map h l).
Proof. induction l as [|x l IH]; intros H; cbn; [constructor|]. apply Permutation_app; [apply H; now left|apply IH; intros y Y; apply H; now right]. Qed.
Lemma faceEdges_all fs : Permutation (flat_map faceEdges fs) (all_directed fs).
Proof. apply flat_map_perm. intros f _. apply faceEdges_perm. Qed.
Lemma all_directed_in fs e : In e (all_directed fs) <-> exists f, In f fs /\ In e (directed f).
Proof. unfold all_directed. apply in_flat_map. Qed.
Lemma nodup_app {A : Type} (l m : list A) : NoDup (l ++ m) <-> NoDup l /\ NoDup m /\ forall x, In x l -> ~ In x m.
Proof.
  induction l as [|x l IH]; cbn; [split; [intros H; split; [constructor|split; [exact H|tauto]]|tauto]|]. split.
  - intros H. inversion H as [|? ? N ND]; subst. apply IH in ND as (N1 & N2 & N3). rewrite in_app_iff in N. split; [constructor; tauto|split; [exact N2|]]. intros y [<- |Y]; [tauto|auto].
  - intros (N1 & N2 & N3). inversion N1 as [|? ? N ND]; subst. constructor; [rewrite in_app_iff; intros [K|K]; [exact (N K)|exact (N3 x (or_introl eq_refl) K)]|]. apply IH. split; [exact ND|split; [exact N2|intros y Y; apply N3; now right]].
Qed.

(** ** Closedness *)
Definition spanning (f : list Z) : bool := Nat.leb 2 (length f).
Lemma closedFace_spec es s : match closedFace es s with
  | Some s' => NoDup es /\ (forall e, In e es -> ~ In e s) /\ forall x, In x s' <-> In x es \/ In x s
  | None => ~ (NoDup es /\ forall e, In e es -> ~ In e s) end.
Proof.
  revert s. induction es as [|e es IH]; intros s; cbn [closedFace]; [split; [constructor|split; [intros ? []|cbn; tauto]]|].
  destruct (setFind e s) eqn:E; [apply setFind_in in E; intros (_ & H); exact (H e (or_introl eq_refl) E)|]. apply setFind_out in E. specialize (IH (setInsert e s)).
  destruct (closedFace es (setInsert e s)) as [s'|].
  - destruct IH as (N & D & I). split; [|split].
    + constructor; [|exact N]. intros K. apply (D e K). apply setInsert_in. now left.
    + intros x [<- |X]; [exact E|]. intros K. apply (D x X). apply setInsert_in. now right.
    + intros x. rewrite I, setInsert_in. cbn. intuition.
  - intros (N & D). inversion N as [|? ? N1 N2]; subst. apply IH. split; [exact N2|]. intros x X K. apply setInsert_in in K as [-> |K]; [exact (N1 X)|exact (D x (or_intror X) K)].
Qed.
Lemma closedFaces_spec fs s : match closedFaces fs s with
  | Some s' => NoDup (flat_map faceEdges (filter spanning fs)) /\ (forall e, In e (flat_map faceEdges (filter spanning fs)) -> ~ In e s) /\ forall x, In x s' <-> In x (flat_map faceEdges (filter spanning fs)) \/ In x s
  | None => ~ (NoDup (flat_map faceEdges (filter spanning fs)) /\ forall e, In e (flat_map faceEdges (filter spanning fs)) -> ~ In e s) end.
Proof.
  revert s. induction fs as [|f fs IH]; intros s; cbn [closedFaces filter]; [cbn; split; [constructor|split; [intros ? []|tauto]]|].
  destruct (Nat.leb_spec (length f) 1) as [L|L].
  - replace (spanning f) with false by (symmetry; apply Nat.leb_gt; lia). apply IH.
  - replace (spanning f) with true by (symmetry; apply Nat.leb_le; lia). cbn [flat_map]. pose proof (closedFace_spec (faceEdges f) s) as C. destruct (closedFace (faceEdges f) s) as [s1|].
    + destruct C as (N & D & I). specialize (IH s1). destruct (closedFaces fs s1) as [s2|].
      * destruct IH as (N2 & D2 & I2). split; [|split].
        -- apply nodup_app. split; [exact N|split; [exact N2|]]. intros x X K. apply (D2 x K). apply I. now left.
        -- intros x X. apply in_app_iff in X as [X|X]; [now apply D|]. intros K. apply (D2 x X). apply I. now right.
        -- intros x. rewrite I2, I, in_app_iff. tauto.
      * intros (N2 & D2). apply nodup_app in N2 as (N2 & N3 & N4). apply IH. split; [exact N3|]. intros x X K. apply I in K as [K|K]; [exact (N4 x K X)|]. apply (D2 x); [apply in_app_iff; now right|exact K].
    + intros (N2 & D2). apply nodup_app in N2 as (N2 & N3 & N4). apply C. split; [exact N2|]. intros x X. apply D2. apply in_app_iff. now left.
Qed.
(** [IsClosed] accepts exactly the face lists in which, over the faces with at least two vertices, each directed edge is used once and is
    answered by its reverse. *)
Theorem C95_closed fs : IsClosed fs = true <-> closed (filter (fun f => Nat.leb 2 (length f)) fs).
Proof.
  change (fun f : list Z => Nat.leb 2 (length f)) with spanning. unfold IsClosed, closed. pose proof (closedFaces_spec fs []) as H. pose proof (faceEdges_all (filter spanning fs)) as P. destruct (closedFaces fs []) as [s|].
  - destruct H as (N & _ & I). assert (M : forall x, In x s <-> In x (all_directed (filter spanning fs))) by (intros x; rewrite I; split; [intros [K|[]]; revert K; now apply Permutation_in|intros K; left; revert K; apply Permutation_in; now symmetry]).
    rewrite forallb_forall. split.
    + intros H. split; [exact (Permutation_NoDup P N)|]. intros a b K. apply M in K. specialize (H _ K). apply setFind_in in H. now apply M in H.
    + intros (_ & H) (a & b) K. apply setFind_in. cbn. apply M. apply H. now apply M.
  - split; [discriminate|]. intros (N & _). exfalso. apply H. split; [exact (Permutation_NoDup (Permutation_sym P) N)|]. intros ? _ [].
Qed.
Print Assumptions C95_closed.
Example C95_closed_witness : closed (filter (fun f => Nat.leb 2 (length f)) TetrahedronFaces) /\ IsClosed (tl TetrahedronFaces) = false /\ IsClosed ([0; 1; 2] :: TetrahedronFaces) = false.
Proof. split; [apply C95_closed; reflexivity|split; reflexivity]. Qed.
Lemma spanning_all nv fs : valid nv fs -> filter (fun f => Nat.leb 2 (length f)) fs = fs.
Proof.
  intros V. assert (G : forall l, (forall f, In f l -> (2 <= length f)%nat) -> filter (fun f : list Z => Nat.leb 2 (length f)) l = l).
  { induction l as [|f l IH]; intros H; [reflexivity|]. cbn [filter]. replace (Nat.leb 2 (length f)) with true by (symmetry; apply Nat.leb_le; apply H; now left). f_equal. apply IH. intros g K. apply H. now right. }
  apply G. intros f F. destruct (V f F) as (L & _). lia.
Qed.
Corollary C95_closed_valid nv fs : valid nv fs -> (IsClosed fs = true <-> closed fs).
Proof. intros V. rewrite C95_closed, (spanning_all nv fs V). reflexivity. Qed.

(** ** Validity *)
Lemma distinct_nodup f : distinct f = true <-> NoDup f.
Proof.
  induction f as [|x f IH]; cbn; [split; [constructor|reflexivity]|]. rewrite andb_true_iff, IH, forallb_forall. split.
  - intros (H & N). constructor; [|exact N]. intros I. specialize (H x I). rewrite Z.eqb_refl in H. discriminate.
  - intros N. inversion N as [|? ? N1 N2]; subst. split; [|exact N2]. intros y I. apply negb_true_iff. apply Z.eqb_neq. intros ->. exact (N1 I).
Qed.
Theorem C95_valid nv fs : FaceIndicesValid nv fs = true <-> valid nv fs.
Proof.
  unfold FaceIndicesValid, valid. rewrite !andb_true_iff, !forallb_forall. split.
  - intros ((A & B) & C) f F. specialize (A f F). specialize (B f F). specialize (C f F). apply negb_true_iff, Nat.ltb_ge in B. split; [exact B|]. split; [now apply distinct_nodup|]. intros x X. rewrite forallb_forall in A. specialize (A x X). apply negb_true_iff, orb_false_iff in A as (A1 & A2). apply Z.ltb_ge in A1. rewrite Z.geb_leb in A2. apply Z.leb_gt in A2. lia.
  - intros V. split; [split|].
    + intros f F. apply forallb_forall. intros x X. destruct (V f F) as (_ & _ & K). specialize (K x X). apply negb_true_iff, orb_false_iff. split; [apply Z.ltb_ge; lia|rewrite Z.geb_leb; apply Z.leb_gt; lia].
    + intros f F. destruct (V f F) as (K & _). apply negb_true_iff, Nat.ltb_ge. exact K.
    + intros f F. destruct (V f F) as (_ & K & _). now apply distinct_nodup.
Qed.
Print Assumptions C95_valid.
Example C95_valid_witness : valid 8 BoxFaces /\ FaceIndicesValid 7 BoxFaces = false /\ FaceIndicesValid 8 ([0; 1; 0] :: BoxFaces) = false.
Proof. split; [apply C95_valid; reflexivity|split; reflexivity]. Qed.

(** ** The set of edges *)
Definition norm_edge (e : edge) : edge := (Z.min (fst e) (snd e), Z.max (fst e) (snd e)).
Lemma EdgeIndices_fold fs s x : (In x (fold_left (fun s f => if Nat.ltb (length f) 3 then s else fold_left (fun s e => setInsert (norm_edge e) s) (faceEdges f) s) fs s) <-> (exists f, In f fs /\ (3 <= length f)%nat /\ In x (map norm_edge (faceEdges f))) \/ In x s)
  /\ (StronglySorted lex s -> StronglySorted lex (fold_left (fun s f => if Nat.ltb (length f) 3 then s else fold_left (fun s e => setInsert (norm_edge e) s) (faceEdges f) s) fs s)).
Proof.
  revert s. induction fs as [|f fs IH]; intros s; cbn [fold_left]; [split; [split; [tauto|intros [(f & [] & _)|K]; exact K]|tauto]|].
  destruct (Nat.ltb_spec (length f) 3) as [L|L].
  - destruct (IH s) as (I1 & I2). split; [|exact I2]. rewrite I1. split; (intros [(g & G & K)|K]; [|now right]).
    + left. exists g. split; [now right|exact K].
    + destruct G as [<- |G]; [lia|]. left. exists g. auto.
  - destruct (IH (fold_left (fun s e => setInsert (norm_edge e) s) (faceEdges f) s)) as (I1 & I2). split; [|intros S; apply I2; now apply inserts_sorted]. rewrite I1, inserts_in. split.
    + intros [(g & G & K)|[K|K]]; [left; exists g; split; [now right|exact K]|left; exists f; split; [now left|auto]|now right].
    + intros [(g & [<- |G] & K1 & K2)|K]; [right; left; exact K2|left; exists g; auto|auto].
Qed.
(** [EdgeIndices] lists, without repetition and in increasing order, the pairs (a, b), a <= b, such that some face of at least three vertices
    goes from a to b or from b to a. *)
Theorem C95_edges fs : StronglySorted lex (EdgeIndices fs) /\ NoDup (EdgeIndices fs) /\
  forall a b, In (a, b) (EdgeIndices fs) <-> a <= b /\ exists f, In f fs /\ (3 <= length f)%nat /\ (In (a, b) (directed f) \/ In (b, a) (directed f)).
Proof.
  assert (S : StronglySorted lex (EdgeIndices fs)) by (apply (EdgeIndices_fold fs [] (0, 0)); constructor). split; [exact S|]. split; [now apply sorted_nodup|]. intros a b.
  destruct (EdgeIndices_fold fs [] (a, b)) as (I & _). etransitivity; [exact I|]. clear I S. split.
  - intros [(f & F & L & K)|[]]. apply in_map_iff in K as ((u & v) & E & K). unfold norm_edge in E. cbn in E. injection E as E1 E2. apply faceEdges_in in K. split; [lia|]. exists f. split; [exact F|]. split; [exact L|].
    destruct (Z.leb_spec u v); [left; replace a with u by lia; replace b with v by lia; exact K|right; replace a with v by lia; replace b with u by lia; exact K].
  - intros (LE & f & F & L & K). left. exists f. split; [exact F|]. split; [exact L|]. apply in_map_iff. destruct K as [K|K]; [exists (a, b)|exists (b, a)]; (split; [unfold norm_edge; cbn; f_equal; lia|now apply faceEdges_in]).
Qed.
Print Assumptions C95_edges.
Example C95_edges_witness : EdgeIndices BoxFaces = [(0, 1); (0, 2); (0, 4); (1, 3); (1, 5); (2, 3); (2, 6); (3, 7); (4, 5); (4, 6); (5, 7); (6, 7)].
Proof. reflexivity. Qed.

(** ** [NumEdges] counts them *)
Lemma length_sum (fs : list face) n : fold_left (fun n f => n + length f)%nat fs n = (n + length (all_directed fs))%nat.
Proof. revert n. induction fs as [|f fs IH]; intros n; cbn [fold_left]; [cbn; lia|]. rewrite IH. unfold all_directed. cbn [flat_map]. rewrite app_length, directed_length. lia. Qed.
Lemma filter_split {A : Type} (p : A -> bool) l : length l = (length (filter p l) + length (filter (fun x => negb (p x)) l))%nat.
Proof. induction l as [|x l IH]; [reflexivity|]. cbn. destruct (p x); cbn; lia. Qed.
Theorem C95_num_edges nv fs : valid nv fs -> closed fs -> length (all_directed fs) = (2 * length (EdgeIndices fs))%nat /\ NumEdges fs = length (EdgeIndices fs)
  /\ (EulerFormulaHolds nv fs = true <-> (nv + length fs = length (EdgeIndices fs) + 2)%nat).
Proof.
  intros V (N & C). assert (D : length (all_directed fs) = (2 * length (EdgeIndices fs))%nat).
  { set (up := fun e : Z * Z => fst e <? snd e). rewrite (filter_split up). destruct (C95_edges fs) as (_ & NE & IE).
    assert (LOOP : forall a b, In (a, b) (all_directed fs) -> a <> b) by (intros a b I; apply all_directed_in in I as (f & F & I); destruct (V f F) as (L & ND & _); exact (directed_loop f a b ND ltac:(lia) I)).
    assert (P : Permutation (filter up (all_directed fs)) (EdgeIndices fs)).
    { apply NoDup_Permutation; [now apply NoDup_filter|exact NE|]. intros (a & b). rewrite filter_In, IE. unfold up. cbn. rewrite Z.ltb_lt. split.
      - intros (I & L). split; [lia|]. apply all_directed_in in I as (f & F & I). exists f. split; [exact F|]. split; [apply (V f F)|now left].
      - intros (L & f & F & _ & I). assert (I' : In (a, b) (all_directed fs)) by (destruct I as [I|I]; [|apply C]; apply all_directed_in; exists f; auto). split; [exact I'|]. specialize (LOOP a b I'). lia. }
    assert (Q : Permutation (filter (fun e => negb (up e)) (all_directed fs)) (map rv (filter up (all_directed fs)))).
    { apply NoDup_Permutation; [now apply NoDup_filter|apply nodup_map_in; [intros x y _ _ E; apply (f_equal rv) in E; now rewrite !rv_rv in E|now apply NoDup_filter]|]. intros (a & b). rewrite filter_In, in_map_iff. unfold up. split.
      - intros (I & L). apply negb_true_iff, Z.ltb_ge in L. cbn in L. exists (b, a). split; [reflexivity|]. apply filter_In. split; [now apply C|]. apply Z.ltb_lt. cbn. specialize (LOOP a b I). lia.
      - intros ((u & v) & E & I). unfold rv in E. cbn in E. injection E as -> ->. apply filter_In in I as (I & L). apply Z.ltb_lt in L. cbn in L. split; [now apply C|]. apply negb_true_iff, Z.ltb_ge. cbn. lia. }
    rewrite (Permutation_length Q), map_length. pose proof (Permutation_length P) as LP. unfold edge in *. rewrite LP. lia. }
  assert (NE : NumEdges fs = length (EdgeIndices fs)) by (unfold NumEdges; rewrite length_sum, D; cbn [Nat.add]; rewrite Nat.mul_comm; now rewrite Nat.div_mul by lia).
  split; [exact D|]. split; [exact NE|]. unfold EulerFormulaHolds. rewrite NE, Z.eqb_eq. unfold face, edge in *. lia.
Qed.
Print Assumptions C95_num_edges.
Example C95_num_edges_witness : valid 8 BoxFaces /\ closed BoxFaces /\ NumEdges BoxFaces = 12%nat /\ EulerFormulaHolds 8 BoxFaces = true.
Proof. split; [apply C95_valid; reflexivity|]. split; [apply (C95_closed_valid 8); [apply C95_valid; reflexivity|reflexivity]|split; reflexivity]. Qed.

(** ** Flipping the orientation *)
Lemma closed_map (D D' : list (Z * Z)) : Permutation D' (map rv D) -> (NoDup D /\ forall a b, In (a, b) D -> In (b, a) D) -> NoDup D' /\ forall a b, In (a, b) D' -> In (b, a) D'.
Proof.
  intros P (N & C). split; [apply (Permutation_NoDup (Permutation_sym P)); apply nodup_map_in; [intros x y _ _ E; apply (f_equal rv) in E; now rewrite !rv_rv in E|exact N]|].
  intros a b I. apply (Permutation_in _ P) in I. apply (Permutation_in _ (Permutation_sym P)). apply in_map_iff in I as ((u & v) & E & I). unfold rv in E. cbn in E. injection E as -> ->. apply in_map_iff. exists (a, b). split; [reflexivity|]. now apply C.
Qed.
Lemma flip_edges fs : Permutation (all_directed (FlipWindingOrder fs)) (map rv (all_directed fs)).
Proof.
  induction fs as [|f fs IH]; [reflexivity|]. unfold all_directed in *. cbn [FlipWindingOrder map flat_map]. rewrite map_app. apply Permutation_app; [|exact IH]. rewrite FlipFace_rev. apply directed_rev.
Qed.
Lemma flip_flip fs : FlipWindingOrder (FlipWindingOrder fs) = fs.
Proof. unfold FlipWindingOrder. rewrite map_map. rewrite <- (map_id fs) at 2. apply map_ext. intros f. rewrite !FlipFace_rev. apply rev_involutive. Qed.
(** Flipping reverses each face and each directed edge, twice is the identity, and closedness, validity and the edge set are kept. *)
Theorem C95_flip nv fs : FlipWindingOrder fs = map (@rev Z) fs /\ (forall a b, In (a, b) (all_directed (FlipWindingOrder fs)) <-> In (b, a) (all_directed fs))
  /\ FlipWindingOrder (FlipWindingOrder fs) = fs /\ (closed (FlipWindingOrder fs) <-> closed fs) /\ (valid nv (FlipWindingOrder fs) <-> valid nv fs) /\ NumEdges (FlipWindingOrder fs) = NumEdges fs.
Proof.
  pose proof (flip_edges fs) as P. split; [unfold FlipWindingOrder; apply map_ext; intros f; apply FlipFace_rev|]. split; [|split; [apply flip_flip|]].
  - intros a b. split; intros I.
    + apply (Permutation_in _ P) in I. apply in_map_iff in I as ((u & v) & E & I). unfold rv in E. cbn in E. injection E as -> ->. exact I.
    + apply (Permutation_in _ (Permutation_sym P)). apply in_map_iff. exists (b, a). auto.
  - split; [|split].
    + split; [intros H|intros H; exact (closed_map _ _ P H)]. pose proof (flip_edges (FlipWindingOrder fs)) as P2. rewrite flip_flip in P2. exact (closed_map _ _ P2 H).
    + assert (G : forall gs, valid nv gs -> valid nv (FlipWindingOrder gs)).
      { intros gs V f F. apply in_map_iff in F as (g & <- & G). destruct (V g G) as (L & ND & B). rewrite FlipFace_rev. split; [now rewrite rev_length|]. split; [now apply NoDup_rev|]. intros x X. apply B. now apply in_rev. }
      split; [intros V; rewrite <- flip_flip; now apply G|apply G].
    + unfold NumEdges. rewrite !length_sum, (Permutation_length P), map_length. reflexivity.
Qed.
Print Assumptions C95_flip.
Example C95_flip_witness : FlipWindingOrder [[0; 1; 2]; [1; 3; 2; 4]] = [[2; 1; 0]; [4; 2; 3; 1]] /\ FlipFace [5; 6; 7; 8; 9] = [9; 8; 7; 6; 5].
Proof. split; reflexivity. Qed.

(** ** Adjacency *)
Lemma adjacency_edges (es : list edge) : forall adj : list (list Z), (forall e, In e es -> 0 <= fst e < Z.of_nat (length adj)) ->
  let r := fold_left (fun adj e => let i := Z.to_nat (fst e) in match nth_error adj i with Some l => setAt adj i (l ++ [snd e]) | None => adj end) es adj in
  length r = length adj /\ forall a, (a < length adj)%nat -> nth a r [] = nth a adj [] ++ map snd (filter (fun e => fst e =? Z.of_nat a) es).
Proof.
  induction es as [|e es IH]; intros adj H; cbn zeta in *; cbn [fold_left filter]; [split; [reflexivity|intros; cbn; now rewrite app_nil_r]|]. set (i := Z.to_nat (fst e)). assert (He := H e (or_introl eq_refl)). assert (Hi : (i < length adj)%nat) by (unfold i; lia).
  rewrite (nth_error_nth' adj [] Hi). destruct (IH (setAt adj i (nth i adj [] ++ [snd e]))) as (L & K); [intros x X; rewrite setAt_length; apply H; now right|]. rewrite setAt_length in L, K. split; [exact L|]. intros a A. rewrite K by exact A.
  assert (NE : nth a (setAt adj i (nth i adj [] ++ [snd e])) [] = if Nat.eqb a i then nth i adj [] ++ [snd e] else nth a adj []).
  { apply nth_error_nth. rewrite setAt_spec by exact Hi. destruct (Nat.eqb a i); [reflexivity|]. now apply nth_error_nth'. }
  rewrite NE. destruct (Nat.eqb_spec a i) as [-> |Q]; [replace (fst e =? Z.of_nat i) with true by (symmetry; apply Z.eqb_eq; unfold i; lia); cbn [map]; now rewrite <- app_assoc|]. replace (fst e =? Z.of_nat a) with false; [reflexivity|]. symmetry. apply Z.eqb_neq. unfold i in Q. lia.
Qed.
Lemma filter_perm {A : Type} (p : A -> bool) l m : Permutation l m -> Permutation (filter p l) (filter p m).
Proof. induction 1; cbn; [constructor|destruct (p x); [now constructor|assumption]|destruct (p x), (p y); try apply Permutation_refl; apply perm_swap|etransitivity; eassumption]. Qed.
(** The adjacency list of a vertex holds, each as often as it occurs, the vertices that some face visits right after it. *)
Theorem C95_adjacency nv fs : (forall f x, In f fs -> In x f -> 0 <= x < Z.of_nat nv) ->
  length (GenerateVertexAdjacencyData nv fs) = nv /\
  forall a, (a < nv)%nat -> Permutation (nth a (GenerateVertexAdjacencyData nv fs) []) (map snd (filter (fun e => fst e =? Z.of_nat a) (all_directed fs))).
Proof.
  intros H. unfold GenerateVertexAdjacencyData.
  assert (G : forall (gs : list face) (adj : list (list Z)), (forall f x, In f gs -> In x f -> 0 <= x < Z.of_nat (length adj)) ->
    let r := fold_left (fun adj f => fold_left (fun adj e => let i := Z.to_nat (fst e) in match nth_error adj i with Some l => setAt adj i (l ++ [snd e]) | None => adj end) (faceEdges f) adj) gs adj in
    length r = length adj /\ forall a, (a < length adj)%nat -> nth a r [] = nth a adj [] ++ map snd (filter (fun e => fst e =? Z.of_nat a) (flat_map faceEdges gs))).
  { induction gs as [|f gs IH]; intros adj B; cbn zeta in *; cbn [fold_left flat_map]; [split; [reflexivity|intros; cbn; now rewrite app_nil_r]|].
    destruct (adjacency_edges (faceEdges f) adj) as (L1 & K1); [intros (u & v) E; apply faceEdges_in, directed_vertex in E as (E & _); exact (B f u (or_introl eq_refl) E)|]. cbn zeta in L1, K1.
    destruct (IH _ (fun g x G X => eq_ind_r (fun n => 0 <= x < Z.of_nat n) (B g x (or_intror G) X) L1)) as (L2 & K2). rewrite L1 in L2, K2. split; [exact L2|]. intros a A. rewrite K2, K1 by exact A. rewrite filter_app, map_app. now rewrite <- app_assoc. }
  destruct (G fs (repeat [] nv)) as (L & K); [intros f x F X; rewrite repeat_length; exact (H f x F X)|]. cbn zeta in L, K. rewrite repeat_length in L, K. split; [exact L|]. intros a A. rewrite K by exact A. rewrite nth_repeat. cbn [app]. apply Permutation_map, filter_perm, faceEdges_all.
Qed.
Print Assumptions C95_adjacency.
Example C95_adjacency_witness : GenerateVertexAdjacencyData 4 TetrahedronFaces = [[1; 2; 3]; [2; 3; 0]; [0; 1; 3]; [2; 0; 1]].
Proof. reflexivity. Qed.
