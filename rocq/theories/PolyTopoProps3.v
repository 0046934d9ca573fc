(** * C97: merging a point into a polyhedron, and the face lists of the predefined solids *)
From Coq Require Import ZArith Bool List Lia Sorted Permutation.
From Verif Require Import PolyTopoModel PolyTopoSpec PolyTopoProofs PolyTopoProps PolyTopoProps2.
Import ListNotations.
Ltac Zify.zify_post_hook ::= idtac.
Local Open Scope Z_scope.

Lemma map_fst_directed f : map fst (directed f) = f.
Proof.
  unfold directed. rewrite map_map. cbn. apply nth_ext with (d := 0) (d' := 0); [now rewrite map_length, seq_length|]. intros i I. rewrite map_length, seq_length in I. rewrite (nth_map_seq (fun i => nth i f 0)) by exact I. reflexivity.
Qed.
Lemma map_snd_directed f : Permutation (map snd (directed f)) f.
Proof.
  rewrite <- (faceEdges_perm f). assert (G : forall l x, map snd (edgesFrom x l) = l) by (induction l as [|y l IH]; intros x; [reflexivity|cbn; now rewrite IH]). destruct f as [|x l]; [reflexivity|]. unfold faceEdges. now rewrite G.
Qed.
Lemma balance fs : Permutation (map fst (all_directed fs)) (map snd (all_directed fs)).
Proof. unfold all_directed. induction fs as [|f fs IH]; [reflexivity|]. cbn [flat_map]. rewrite !map_app. apply Permutation_app; [|exact IH]. rewrite map_fst_directed. symmetry. apply map_snd_directed. Qed.
Lemma filter_part {A : Type} (p : A -> bool) l : Permutation l (filter p l ++ filter (fun x => negb (p x)) l).
Proof. induction l as [|x l IH]; [reflexivity|]. cbn. destruct (p x); cbn; [now constructor|]. rewrite IH at 1. apply Permutation_middle. Qed.
Lemma flat_map_part {A B : Type} (g : A -> list B) (p : A -> bool) l : Permutation (flat_map g l) (flat_map g (filter p l) ++ flat_map g (filter (fun x => negb (p x)) l)).
Proof.
  induction l as [|x l IH]; [reflexivity|]. cbn. destruct (p x); cbn; [rewrite IH, app_assoc; reflexivity|]. rewrite IH. rewrite !app_assoc. apply Permutation_app_tail. apply Permutation_app_comm.
Qed.
Lemma flat_map3 {A B : Type} (a b c : A -> B) l : Permutation (flat_map (fun i => [a i; b i; c i]) l) (map a l ++ map b l ++ map c l).
Proof.
  induction l as [|x l IH]; [reflexivity|]. cbn. constructor. rewrite IH. etransitivity; [|apply Permutation_middle]. constructor.
  transitivity (map a l ++ c x :: (map b l ++ map c l)); [apply Permutation_middle|]. apply Permutation_app_head. apply Permutation_middle.
Qed.
Lemma flat_map4 {A B : Type} (a b c d : A -> B) l : Permutation (flat_map (fun i => [a i; b i; c i; d i]) l) (map a l ++ map b l ++ map c l ++ map d l).
Proof.
  induction l as [|x l IH]; [reflexivity|]. cbn. constructor. rewrite IH.
  transitivity (map a l ++ b x :: c x :: d x :: (map b l ++ map c l ++ map d l)); [exact (Permutation_app_swap_app [b x; c x; d x] (map a l) (map b l ++ map c l ++ map d l))|]. apply Permutation_app_head. cbn. constructor.
  transitivity (map b l ++ c x :: d x :: (map c l ++ map d l)); [exact (Permutation_app_swap_app [c x; d x] (map b l) (map c l ++ map d l))|]. apply Permutation_app_head. cbn. constructor. apply Permutation_middle.
Qed.

(** ** Merging a point *)
(** The edges of the deleted faces whose reverse belongs to a kept face. *)
Definition horizon (keep : list Z -> bool) (fs : list (list Z)) : list (Z * Z) :=
  filter (fun e => negb (existsb (fun e' => (fst e' =? snd e) && (snd e' =? fst e))%bool (all_directed (filter (fun f => negb (keep f)) fs)))) (all_directed (filter (fun f => negb (keep f)) fs)).
Section MERGE.
  Context (keep : list Z -> bool) (nv : nat) (fs : list (list Z)) (V : valid nv fs) (C : closed fs).
  Let Dk := all_directed (filter keep fs).
  Let Dd := all_directed (filter (fun f => negb (keep f)) fs).
  Let H := horizon keep fs.
  Let N := Z.of_nat nv.
  Lemma part : Permutation (all_directed fs) (Dk ++ Dd).
  Proof. apply flat_map_part. Qed.
  Lemma kd_disjoint e : In e Dk -> ~ In e Dd.
  Proof. destruct C as (ND & _). apply (Permutation_NoDup part) in ND. apply nodup_app in ND as (_ & _ & K). apply K. Qed.
  Lemma kd_sym a b : In (a, b) (Dk ++ Dd) -> In (b, a) (Dk ++ Dd).
  Proof. intros I. apply (Permutation_in _ part). apply C. exact (Permutation_in _ (Permutation_sym part) I). Qed.
  Lemma Dk_nodup : NoDup Dk. Proof. destruct C as (ND & _). apply (Permutation_NoDup part) in ND. now apply nodup_app in ND. Qed.
  Lemma Dd_nodup : NoDup Dd. Proof. destruct C as (ND & _). apply (Permutation_NoDup part) in ND. now apply nodup_app in ND. Qed.
  Lemma rev_exists e : existsb (fun e' => (fst e' =? snd e) && (snd e' =? fst e))%bool Dd = true <-> In (rv e) Dd.
  Proof.
    rewrite existsb_exists. split; [intros ((a & b) & I & E); apply andb_true_iff in E as (E1 & E2); apply Z.eqb_eq in E1, E2; cbn in E1, E2; subst; exact I|]. intros I. exists (rv e). split; [exact I|]. unfold rv. cbn. now rewrite !Z.eqb_refl.
  Qed.
  Lemma horizon_in a b : In (a, b) H <-> In (a, b) Dd /\ ~ In (b, a) Dd.
  Proof.
    unfold H, horizon. fold Dd. rewrite filter_In, negb_true_iff. pose proof (rev_exists (a, b)) as R. unfold rv in R. cbn [fst snd] in R |- *. destruct (existsb _ Dd); intuition congruence.
  Qed.
  Lemma horizon_opposite a b : In (a, b) H <-> In (a, b) Dd /\ In (b, a) Dk.
  Proof.
    rewrite horizon_in. split; intros (I & K); (split; [exact I|]).
    - assert (Q : In (b, a) (Dk ++ Dd)) by (apply kd_sym; apply in_app_iff; now right). apply in_app_iff in Q. tauto.
    - now apply kd_disjoint.
  Qed.
  Lemma horizon_balance : Permutation (map fst H) (map snd H).
  Proof.
    pose proof (balance (filter (fun f => negb (keep f)) fs)) as B. fold Dd in B. set (p := fun e : Z * Z => existsb (fun e' => (fst e' =? snd e) && (snd e' =? fst e))%bool Dd). pose proof (filter_part p Dd) as P.
    change (filter (fun x => negb (p x)) Dd) with H in P. set (I := filter p Dd) in *. assert (SI : Permutation (map rv I) I).
    { apply NoDup_Permutation; [apply nodup_map_in; [intros x y _ _ E; apply (f_equal rv) in E; now rewrite !rv_rv in E|apply NoDup_filter, Dd_nodup]|apply NoDup_filter, Dd_nodup|]. intros e. unfold I. rewrite in_map_iff, filter_In. unfold p. rewrite rev_exists. split.
      - intros (x & <- & K). apply filter_In in K as (K1 & K2). apply rev_exists in K2. rewrite rv_rv. auto.
      - intros (K1 & K2). exists (rv e). split; [apply rv_rv|]. apply filter_In. split; [exact K2|]. apply rev_exists. now rewrite rv_rv. }
    assert (E : map fst I = map snd (map rv I)) by (rewrite map_map; reflexivity). apply (Permutation_app_inv_l (map fst I)). rewrite <- map_app. rewrite <- (Permutation_map fst P), B, (Permutation_map snd P), map_app. apply Permutation_app_tail. rewrite E. apply Permutation_map. now symmetry.
  Qed.
  Lemma deleted_in e : In e (fold_left (fun (s : list edge) (f : face) => fold_left (fun (s : list edge) (e : edge) => setInsert e s) (faceEdges f) s) (filter (fun f : face => negb (keep f)) fs) (@nil edge)) <-> In e Dd.
  Proof.
    assert (G : forall gs s, In e (fold_left (fun s f => fold_left (fun s e => setInsert e s) (faceEdges f) s) gs s) <-> In e (all_directed gs) \/ In e s).
    { induction gs as [|f gs IH]; intros s; cbn [fold_left]; [cbn; tauto|]. rewrite IH, (inserts_in (fun e => e)), map_id, faceEdges_in. unfold all_directed. cbn [flat_map]. rewrite in_app_iff. tauto. }
    rewrite G. cbn. tauto.
  Qed.
  Lemma deleted_sorted : StronglySorted lex (fold_left (fun (s : list edge) (f : face) => fold_left (fun (s : list edge) (e : edge) => setInsert e s) (faceEdges f) s) (filter (fun f : face => negb (keep f)) fs) (@nil edge)).
  Proof.
    assert (G : forall gs s, StronglySorted lex s -> StronglySorted lex (fold_left (fun s f => fold_left (fun s e => setInsert e s) (faceEdges f) s) gs s)) by (induction gs as [|f gs IH]; intros s S; cbn [fold_left]; [exact S|apply IH; now apply (inserts_sorted (fun e => e))]). apply G. constructor.
  Qed.
  Lemma merge_faces : exists HS, Permutation HS H /\ fst (MergeFaces keep nv fs) = filter keep fs ++ map (fun e => [fst e; snd e; N]) HS /\ (snd (MergeFaces keep nv fs) = true <-> exists f, In f fs /\ keep f = false).
  Proof.
    unfold MergeFaces. set (del := fold_left (fun (s : list edge) (f : face) => fold_left (fun (s : list edge) (e : edge) => setInsert e s) (faceEdges f) s) (filter (fun f : face => negb (keep f)) fs) (@nil edge)). pose proof deleted_in as DI. fold del in DI. pose proof deleted_sorted as DS. fold del in DS. clearbody del.
    assert (EM : del = [] <-> forall f, In f fs -> keep f = true).
    { split.
      - intros E f F. destruct (keep f) eqn:K; [reflexivity|]. exfalso. destruct (V f F) as (L & _). destruct f as [|x f]; [cbn in L; lia|]. destruct (directed_out (x :: f) x (or_introl eq_refl)) as (b & B). assert (Q : In (x, b) del) by (apply DI; apply all_directed_in; exists (x :: f); split; [apply filter_In; split; [exact F|now rewrite K]|exact B]). rewrite E in Q. destruct Q.
      - intros A. destruct del as [|e del]; [reflexivity|]. exfalso. assert (Q : In e Dd) by (apply DI; now left). apply all_directed_in in Q as (f & F & _). apply filter_In in F as (F & K). rewrite (A f F) in K. discriminate. }
    set (HS := filter (fun e => negb (setFind (snd e, fst e) del)) del). assert (PH : Permutation HS H).
    { apply NoDup_Permutation; [apply NoDup_filter; now apply sorted_nodup|apply NoDup_filter; exact Dd_nodup|]. intros (a & b). rewrite horizon_in. unfold HS. rewrite filter_In, negb_true_iff. cbn [fst snd]. rewrite setFind_out, !DI. reflexivity. }
    exists HS. split; [exact PH|]. destruct del as [|e del].
    - cbn [fst snd]. subst HS. cbn [filter map]. rewrite app_nil_r. split; [reflexivity|]. split; [discriminate|]. intros (f & F & K). pose proof (proj1 EM eq_refl f F). congruence.
    - cbn [fst snd]. split; [reflexivity|]. split; [|reflexivity]. intros _. assert (Q : In e Dd) by (apply DI; now left). apply all_directed_in in Q as (f & F & _). apply filter_In in F as (F & K). exists f. split; [exact F|]. now apply negb_true_iff in K.
  Qed.
  Lemma index_lt e : In e (Dk ++ Dd) -> 0 <= fst e < N /\ 0 <= snd e < N /\ fst e <> snd e.
  Proof.
    intros I. apply (Permutation_in _ (Permutation_sym part)) in I. destruct e as (a & b). apply all_directed_in in I as (f & F & I). destruct (V f F) as (L & ND & B). pose proof (directed_loop f a b ND ltac:(lia) I). apply directed_vertex in I as (I1 & I2). cbn. pose proof (B a I1). pose proof (B b I2). unfold N. lia.
  Qed.
  Lemma merge_edges : Permutation (all_directed (fst (MergeFaces keep nv fs))) (Dk ++ H ++ map (fun e => (snd e, N)) H ++ map (fun e => (N, fst e)) H).
  Proof.
    destruct merge_faces as (HS & PH & E & _). rewrite E. unfold all_directed. rewrite flat_map_app. apply Permutation_app_head. rewrite flat_map_concat_map, map_map, <- flat_map_concat_map.
    rewrite (flat_map_perm _ (fun e => [(fst e, snd e); (snd e, N); (N, fst e)])) by (intros e _; reflexivity). rewrite flat_map3. rewrite (map_ext (fun e : Z * Z => (fst e, snd e)) (fun e => e)) by (intros (a & b); reflexivity). rewrite map_id. apply Permutation_app; [exact PH|]. apply Permutation_app; now apply Permutation_map.
  Qed.
  Lemma H_in_d e : In e H -> In e (Dk ++ Dd).
  Proof. intros I. destruct e as (a & b). apply horizon_in in I as (I & _). apply in_app_iff. now right. Qed.
  Lemma merge_sym a b : In (a, b) (all_directed (fst (MergeFaces keep nv fs))) -> In (b, a) (all_directed (fst (MergeFaces keep nv fs))).
  Proof.
    assert (G : In (a, b) (Dk ++ H ++ map (fun e => (snd e, N)) H ++ map (fun e => (N, fst e)) H) -> In (b, a) (Dk ++ H ++ map (fun e => (snd e, N)) H ++ map (fun e => (N, fst e)) H)).
    { rewrite !in_app_iff. intros [I|[I|[I|I]]].
      - assert (Q : In (b, a) (Dk ++ Dd)) by (apply kd_sym; apply in_app_iff; now left). apply in_app_iff in Q as [Q|Q]; [now left|]. right. left. apply horizon_opposite. auto.
      - apply horizon_opposite in I as (_ & I). now left.
      - right. right. right. apply in_map_iff in I as ((u & v) & E & I). cbn in E. injection E as <- <-. assert (Q : In v (map fst H)) by (apply (Permutation_in _ (Permutation_sym horizon_balance)); apply in_map_iff; exists (u, v); auto). apply in_map_iff in Q as ((w & z) & <- & Q). apply in_map_iff. exists (w, z). auto.
      - right. right. left. apply in_map_iff in I as ((u & v) & E & I). cbn in E. injection E as <- <-. assert (Q : In u (map snd H)) by (apply (Permutation_in _ horizon_balance); apply in_map_iff; exists (u, v); auto). apply in_map_iff in Q as ((w & z) & <- & Q). apply in_map_iff. exists (w, z). auto. }
    intros I. apply (Permutation_in _ (Permutation_sym merge_edges)), G. exact (Permutation_in _ merge_edges I).
  Qed.
  Lemma merge_nodup : NoDup (all_directed (fst (MergeFaces keep nv fs))) <-> NoDup (map fst H).
  Proof.
    split.
    - intros ND. apply (Permutation_NoDup merge_edges) in ND. apply nodup_app in ND as (_ & ND & _). apply nodup_app in ND as (_ & ND & _). apply nodup_app in ND as (_ & ND & _). apply (NoDup_map_inv (fun a => (N, a))). rewrite map_map. exact ND.
    - intros ND. apply (Permutation_NoDup (Permutation_sym merge_edges)). assert (HN : NoDup H) by apply NoDup_filter, Dd_nodup. assert (ND2 : NoDup (map snd H)) by exact (Permutation_NoDup horizon_balance ND).
      assert (HD : forall e, In e H -> In e (Dk ++ Dd)) by exact H_in_d.
      apply nodup_app. split; [exact Dk_nodup|]. split.
      + apply nodup_app. split; [exact HN|]. split.
        * apply nodup_app. split; [|split].
          -- rewrite <- (map_map snd (fun b => (b, N))). apply nodup_map_in; [|exact ND2]. intros x y _ _ E. now injection E.
          -- rewrite <- (map_map fst (fun a => (N, a))). apply nodup_map_in; [|exact ND]. intros x y _ _ E. now injection E.
          -- intros e I K. apply in_map_iff in I as (x & <- & I). apply in_map_iff in K as (y & E & K). injection E as E1 E2. pose proof (index_lt x (HD x I)). lia.
        * intros e I K. pose proof (index_lt e (HD e I)) as (B1 & B2 & _). apply in_app_iff in K as [K|K]; apply in_map_iff in K as (y & <- & K); cbn in *; lia.
      + intros e I K. apply in_app_iff in K as [K|K].
        * destruct e as (a & b). apply horizon_in in K as (K & _). exact (kd_disjoint _ I K).
        * assert (B : In e (Dk ++ Dd)) by (apply in_app_iff; now left). pose proof (index_lt e B) as (B1 & B2 & _). apply in_app_iff in K as [K|K]; apply in_map_iff in K as (y & <- & K); cbn in *; lia.
  Qed.
End MERGE.
(** For a closed polyhedron with valid faces, whichever faces are deleted: the kept faces stay and each edge of the rim of the hole gets a
    triangle to the new vertex; all faces are valid; every edge is answered by its reverse; and the result is closed exactly when the rim
    passes no vertex twice (so the hole is bounded by disjoint simple cycles). *)
Theorem C97_merge keep nv fs : valid nv fs -> closed fs ->
  let fs' := fst (MergeFaces keep nv fs) in
  (forall f, In f fs' <-> (In f fs /\ keep f = true) \/ exists a b, In (a, b) (horizon keep fs) /\ f = [a; b; Z.of_nat nv])
  /\ (snd (MergeFaces keep nv fs) = true <-> exists f, In f fs /\ keep f = false)
  /\ valid (S nv) fs'
  /\ (forall a b, In (a, b) (all_directed fs') -> In (b, a) (all_directed fs'))
  /\ (closed fs' <-> NoDup (map fst (horizon keep fs))).
Proof.
  intros V C. cbn zeta. pose proof (merge_faces keep nv fs V C) as (HS & PH & E & MB). assert (FI : forall f, In f (fst (MergeFaces keep nv fs)) <-> (In f fs /\ keep f = true) \/ exists a b, In (a, b) (horizon keep fs) /\ f = [a; b; Z.of_nat nv]).
  { intros f. rewrite E, in_app_iff, filter_In, in_map_iff. apply or_iff_compat_l. split.
    - intros ((a & b) & <- & I). exists a, b. split; [exact (Permutation_in _ PH I)|reflexivity].
    - intros (a & b & I & ->). exists (a, b). split; [reflexivity|]. exact (Permutation_in _ (Permutation_sym PH) I). }
  split; [exact FI|]. split; [exact MB|]. split; [|split].
  - intros f F. apply FI in F as [(F & _)|(a & b & I & ->)].
    + destruct (V f F) as (L & ND & B). split; [exact L|]. split; [exact ND|]. intros x X. specialize (B x X). lia.
    + assert (Q : In (a, b) (all_directed fs)) by (apply (Permutation_in _ (Permutation_sym (part keep fs))), (H_in_d keep fs), I). pose proof (index_lt keep nv fs V (a, b) (Permutation_in _ (part keep fs) Q)) as (B1 & B2 & B3). cbn in B1, B2, B3. split; [cbn; lia|]. split.
      * constructor; [cbn; intros [K|[K|[]]]; lia|]. constructor; [cbn; intros [K|[]]; lia|]. constructor; [easy|constructor].
      * intros x [<- |[<- |[<- |[]]]]; lia.
  - intros a b. apply (merge_sym keep nv fs V C).
  - unfold closed. rewrite (merge_nodup keep nv fs V C). split; [tauto|]. intros K. split; [exact K|]. intros a b. apply (merge_sym keep nv fs V C).
Qed.
Print Assumptions C97_merge.
(** Deleting three faces of the box around a corner gives a new closed polyhedron; deleting two opposite corners' worth of the octahedron that touch in a vertex does not. *)
Example C97_merge_witness : let keep := fun f => match f with [1; 5; 7; 3] => false | [4; 6; 7; 5] => false | [7; 6; 2; 3] => false | _ => true end in
  valid 8 BoxFaces /\ closed BoxFaces /\ NoDup (map fst (horizon keep BoxFaces)) /\ length (horizon keep BoxFaces) = 6%nat /\ IsClosed (fst (MergeFaces keep 8 BoxFaces)) = true.
Proof. split; [apply C95_valid; reflexivity|]. split; [apply (C95_closed_valid 8); [apply C95_valid; reflexivity|reflexivity]|]. split; [apply distinct_nodup; reflexivity|]. split; reflexivity. Qed.
Example C97_merge_pinched : let keep := fun f => match f with [0; 1; 2] => false | [3; 5; 2] => false | _ => true end in
  valid 6 OctahedronFaces /\ closed OctahedronFaces /\ ~ closed (fst (MergeFaces keep 6 OctahedronFaces)).
Proof.
  assert (V : valid 6 OctahedronFaces) by (apply C95_valid; reflexivity). assert (C : closed OctahedronFaces) by (apply (C95_closed_valid 6); [exact V|reflexivity]). split; [exact V|]. split; [exact C|]. intros K. apply (C97_merge _ 6 _ V C) in K. apply distinct_nodup in K. discriminate K.
Qed.

(** ** The predefined solids *)
Theorem C97_solids : forall nv fs, In (nv, fs) [(4%nat, TetrahedronFaces); (6%nat, OctahedronFaces); (8%nat, BoxFaces); (12%nat, IcosahedronFaces); (20%nat, DodecahedronFaces)] ->
  valid nv fs /\ closed fs /\ euler nv fs /\ (forall x, 0 <= x < Z.of_nat nv -> exists f, In f fs /\ In x f).
Proof.
  assert (G : forall nv fs, FaceIndicesValid nv fs = true -> IsClosed fs = true -> (nv + length fs =? length (all_directed fs) / 2 + 2)%nat = true -> forallb (fun i => existsb (existsb (Z.eqb (Z.of_nat i))) fs) (seq 0 nv) = true ->
    valid nv fs /\ closed fs /\ euler nv fs /\ (forall x, 0 <= x < Z.of_nat nv -> exists f, In f fs /\ In x f)).
  { intros nv fs H1 H2 H3 H4. apply C95_valid in H1. split; [exact H1|]. split; [now apply (C95_closed_valid nv)|]. split; [now apply Nat.eqb_eq in H3|]. intros x X. rewrite forallb_forall in H4. specialize (H4 (Z.to_nat x) ltac:(apply in_seq; lia)). apply existsb_exists in H4 as (f & F & K). exists f. split; [exact F|]. apply existsb_exists in K as (y & Y & E). apply Z.eqb_eq in E. rewrite Z2Nat.id in E by lia. now subst. }
  intros nv fs I. cbn [In] in I. repeat destruct I as [E|I]; try (injection E as <- <-; apply G; vm_compute; reflexivity). destruct I.
Qed.
Print Assumptions C97_solids.

(** ** Capsules, for any number of vertices per cap *)
Section CAPSULE.
  Context (n : nat) (N3 : (3 <= n)%nat).
  Let m := Z.of_nat n.
  Let s (i : Z) : Z := (i + 1) mod m.
  Lemma s_step i : 0 <= i < m -> (i + 1 < m /\ s i = i + 1) \/ (i = m - 1 /\ s i = 0).
  Proof. intros I. unfold s. destruct (Z.lt_ge_cases (i + 1) m) as [L|L]; [left; split; [exact L|apply Z.mod_small; lia]|right; split; [lia|]; replace (i + 1) with m by lia; apply Z.mod_same; unfold m; lia]. Qed.
  Lemma s_onto i : 0 <= i < m -> exists j, 0 <= j < m /\ s j = i.
  Proof. intros I. destruct (Z.eq_dec i 0) as [-> |Q]; [exists (m - 1)|exists (i - 1)]; (split; [lia|]). - destruct (s_step (m - 1)); lia. - destruct (s_step (i - 1)); lia. Qed.
  Lemma iota_in i : In i (iota n) <-> 0 <= i < m.
  Proof. unfold iota. rewrite in_map_iff. split; [intros (k & <- & K); apply in_seq in K; unfold m; lia|]. intros I. exists (Z.to_nat i). split; [lia|]. apply in_seq. unfold m in I. lia. Qed.
  Lemma iota_nodup : NoDup (iota n).
  Proof. apply nodup_map_in; [intros x y _ _ E; lia|apply seq_NoDup]. Qed.
  Lemma iota_length : length (iota n) = n. Proof. unfold iota. now rewrite map_length, seq_length. Qed.
  Lemma directed_iota : directed (iota n) = map (fun i => (i, s i)) (iota n).
  Proof.
    unfold directed. rewrite iota_length. unfold iota at 3. rewrite map_map. apply map_ext_in. intros i I. apply in_seq in I. assert (NT : forall k, (k < n)%nat -> nth k (iota n) 0 = Z.of_nat k) by (intros k K; unfold iota; rewrite (nth_map_seq Z.of_nat) by exact K; reflexivity).
    rewrite !NT by (try apply Nat.mod_upper_bound; lia). f_equal. unfold s, m. rewrite Nat2Z.inj_mod by lia. f_equal. lia.
  Qed.
  Lemma inj_family (g : Z -> Z * Z) : (forall i j, 0 <= i < m -> 0 <= j < m -> g i = g j -> i = j) -> NoDup (map g (iota n)).
  Proof. intros H. apply nodup_map_in; [|apply iota_nodup]. intros x y X Y E. apply H; [now apply iota_in|now apply iota_in|exact E]. Qed.
  Lemma in_family (g : Z -> Z * Z) e : In e (map g (iota n)) <-> exists i, 0 <= i < m /\ e = g i.
  Proof. rewrite in_map_iff. split; intros (i & A & B); exists i; [split; [now apply iota_in|now symmetry]|split; [now symmetry|now apply iota_in]]. Qed.
  Definition sides_families := map (fun i => (s i, i)) (iota n) ++ map (fun i => (i, m + i)) (iota n) ++ map (fun i => (m + i, m + s i)) (iota n) ++ map (fun i => (m + s i, s i)) (iota n).
  Lemma sides_edges : Permutation (all_directed (CapsuleSides n)) sides_families.
  Proof. unfold all_directed, CapsuleSides. fold m. rewrite flat_map_concat_map, map_map, <- flat_map_concat_map. unfold sides_families. rewrite <- flat_map4. apply flat_map_perm. intros i _. reflexivity. Qed.
  Lemma sides_valid nv f : 2 * m <= Z.of_nat nv -> In f (CapsuleSides n) -> (3 <= length f)%nat /\ NoDup f /\ forall x, In x f -> 0 <= x < Z.of_nat nv.
  Proof.
    intros B F. unfold CapsuleSides in F. fold m in F. apply in_map_iff in F as (i & <- & I). apply iota_in in I. change ((i + 1) mod m) with (s i). pose proof (s_step i I) as S. assert (M3 : 3 <= m) by (unfold m; lia). split; [cbn; lia|]. split.
    - repeat constructor; cbn; intros K; repeat destruct K as [K|K]; try contradiction; lia.
    - intros x [<- |[<- |[<- |[<- |[]]]]]; lia.
  Qed.
  Ltac fam := repeat match goal with
    | K : In _ (_ ++ _) |- _ => apply in_app_iff in K
    | K : In _ _ \/ _ |- _ => destruct K as [K|K]
    | K : In _ (map _ (iota n)) |- _ => apply in_family in K as (?i & ?I & K)
    | K : ?e = (_, _) |- _ => is_var e; subst e
    | K : (_, _) = (_, _) |- _ => apply pair_equal_spec in K as (?E1 & ?E2)
    end.
  Ltac steps := repeat match goal with I : 0 <= ?i < m |- _ => lazymatch goal with _ : (i + 1 < m /\ _) \/ _ |- _ => fail | _ => idtac end; pose proof (s_step i I) end.
  Definition capsule_families := map (fun i => (i, s i)) (iota n) ++ map (fun i => (2 * m - 1 - i, 2 * m - 1 - s i)) (iota n) ++ sides_families.
  Lemma capsule_edges : Permutation (all_directed (CapsuleFaces n)) capsule_families.
  Proof.
    unfold CapsuleFaces. fold m. unfold all_directed. cbn [flat_map]. rewrite directed_map, directed_iota, map_map. cbn [fst snd]. unfold capsule_families. do 2 apply Permutation_app_head. apply sides_edges.
  Qed.
  Lemma sides_nodup : NoDup sides_families.
  Proof.
    assert (M3 : 3 <= m) by (unfold m; lia). unfold sides_families.
    apply nodup_app; split; [apply inj_family; intros i j I J E; apply pair_equal_spec in E; lia|split]; [apply nodup_app; split; [apply inj_family; intros i j I J E; apply pair_equal_spec in E; lia|split]; [apply nodup_app; split; [apply inj_family; intros i j I J E; apply pair_equal_spec in E; lia|split]; [apply inj_family; intros i j I J E; apply pair_equal_spec in E as (E1 & E2); steps; lia|]|]|];
      (intros e K1 K2; fam; steps; lia).
  Qed.
  Lemma capsule_nodup : NoDup capsule_families.
  Proof.
    assert (M3 : 3 <= m) by (unfold m; lia). unfold capsule_families. apply nodup_app; split; [apply inj_family; intros i j I J E; apply pair_equal_spec in E; lia|split]; [apply nodup_app; split; [apply inj_family; intros i j I J E; apply pair_equal_spec in E; lia|split]; [apply sides_nodup|]|]; unfold sides_families; (intros e K1 K2; fam; steps; lia).
  Qed.
  Ltac here k i := exists i; split; [lia|f_equal; k].
  Lemma capsule_sym a b : In (a, b) capsule_families -> In (b, a) capsule_families.
  Proof.
    assert (M3 : 3 <= m) by (unfold m; lia). unfold capsule_families, sides_families. rewrite !in_app_iff, !in_family. intros K. repeat destruct K as [K|K]; destruct K as (i & I & E); apply pair_equal_spec in E as (-> & ->); pose proof (s_step i I) as S.
    - do 2 right. left. exists i. auto.
    - do 4 right. left. exists (m - 1 - s i). split; [lia|]. pose proof (s_step (m - 1 - s i) ltac:(lia)). f_equal; lia.
    - left. exists i. auto.
    - do 5 right. destruct (s_onto i I) as (j & J & <-). exists j. auto.
    - right. left. exists (m - 1 - s i). split; [lia|]. pose proof (s_step (m - 1 - s i) ltac:(lia)). f_equal; lia.
    - do 3 right. left. exists (s i). split; [lia|reflexivity].
  Qed.
  Lemma capsule_closed : closed (CapsuleFaces n).
  Proof.
    split; [exact (Permutation_NoDup (Permutation_sym capsule_edges) capsule_nodup)|]. intros a b I. apply (Permutation_in _ (Permutation_sym capsule_edges)), capsule_sym. exact (Permutation_in _ capsule_edges I).
  Qed.
  Definition sharp_families := (map (fun i => (i, s i)) (iota n) ++ map (fun i => (s i, 2 * m)) (iota n) ++ map (fun i => (2 * m, i)) (iota n))
    ++ (map (fun i => (m + s i, m + i)) (iota n) ++ map (fun i => (m + i, 2 * m + 1)) (iota n) ++ map (fun i => (2 * m + 1, m + s i)) (iota n)) ++ sides_families.
  Lemma sharp_edges : Permutation (all_directed (SharpCapsuleFaces n)) sharp_families.
  Proof.
    unfold SharpCapsuleFaces, sharp_families. fold m. unfold all_directed. rewrite !flat_map_app. apply Permutation_app; [|apply Permutation_app; [|apply sides_edges]]; rewrite flat_map_concat_map, map_map, <- flat_map_concat_map, <- flat_map3; apply flat_map_perm; intros i _; reflexivity.
  Qed.
  Lemma sharp_nodup : NoDup sharp_families.
  Proof.
    assert (M3 : 3 <= m) by (unfold m; lia). unfold sharp_families.
    apply nodup_app; split; [apply nodup_app; split; [apply inj_family; intros i j I J E; apply pair_equal_spec in E; lia|split]; [apply nodup_app; split; [apply inj_family; intros i j I J E; apply pair_equal_spec in E as (E1 & E2); steps; lia|split]; [apply inj_family; intros i j I J E; apply pair_equal_spec in E; lia|]|]; (intros e K1 K2; fam; steps; lia)|].
    split; [apply nodup_app; split; [apply nodup_app; split; [apply inj_family; intros i j I J E; apply pair_equal_spec in E; lia|split]; [apply nodup_app; split; [apply inj_family; intros i j I J E; apply pair_equal_spec in E as (E1 & E2); steps; lia|split]; [apply inj_family; intros i j I J E; apply pair_equal_spec in E as (E1 & E2); steps; lia|]|]; (intros e K1 K2; fam; steps; lia)|split; [apply sides_nodup|]]|]; unfold sides_families; (intros e K1 K2; fam; steps; lia).
  Qed.
  Lemma sharp_sym a b : In (a, b) sharp_families -> In (b, a) sharp_families.
  Proof.
    assert (M3 : 3 <= m) by (unfold m; lia). unfold sharp_families, sides_families. rewrite !in_app_iff, !in_family. intros K. repeat destruct K as [K|K]; destruct K as (i & I & E); apply pair_equal_spec in E as (-> & ->); pose proof (s_step i I) as S.
    - right. right. left. exists i. auto.
    - left. right. right. exists (s i). split; [lia|reflexivity].
    - left. right. left. destruct (s_onto i I) as (j & J & <-). exists j. auto.
    - do 4 right. left. exists i. auto.
    - right. left. right. right. destruct (s_onto i I) as (j & J & <-). exists j. auto.
    - right. left. right. left. exists (s i). split; [lia|reflexivity].
    - left. left. exists i. auto.
    - do 5 right. destruct (s_onto i I) as (j & J & <-). exists j. auto.
    - right. left. left. exists i. auto.
    - do 3 right. left. exists (s i). split; [lia|reflexivity].
  Qed.
  Lemma sharp_closed : closed (SharpCapsuleFaces n).
  Proof.
    split; [exact (Permutation_NoDup (Permutation_sym sharp_edges) sharp_nodup)|]. intros a b I. apply (Permutation_in _ (Permutation_sym sharp_edges)), sharp_sym. exact (Permutation_in _ sharp_edges I).
  Qed.
End CAPSULE.
(** For every number n >= 3 of vertices per cap the two kinds of capsule have valid faces, are closed and satisfy Euler's formula. *)
Theorem C97_capsule n : (3 <= n)%nat ->
  (valid (2 * n) (CapsuleFaces n) /\ closed (CapsuleFaces n) /\ euler (2 * n) (CapsuleFaces n) /\ NumEdges (CapsuleFaces n) = (3 * n)%nat)
  /\ (valid (2 * n + 2) (SharpCapsuleFaces n) /\ closed (SharpCapsuleFaces n) /\ euler (2 * n + 2) (SharpCapsuleFaces n) /\ NumEdges (SharpCapsuleFaces n) = (5 * n)%nat).
Proof.
  intros N3. assert (EL : length (all_directed (CapsuleFaces n)) = (3 * n * 2)%nat) by (rewrite (Permutation_length (capsule_edges n N3)); unfold capsule_families, sides_families; rewrite !app_length, !map_length, !iota_length; lia).
  assert (ES : length (all_directed (SharpCapsuleFaces n)) = (5 * n * 2)%nat) by (rewrite (Permutation_length (sharp_edges n)); unfold sharp_families, sides_families; rewrite !app_length, !map_length, !iota_length; lia).
  assert (HL : forall k, Nat.div (k * 2) 2 = k) by (intros k; apply Nat.div_mul; lia). split.
  - split; [|split; [now apply capsule_closed|split]].
    + intros f F. unfold CapsuleFaces in F. cbn [In] in F. destruct F as [<- |[<- |F]].
      * rewrite iota_length. split; [exact N3|]. split; [now apply iota_nodup|]. intros x X. apply iota_in in X; [|exact N3]. lia.
      * rewrite map_length, iota_length. split; [exact N3|]. split; [apply nodup_map_in; [intros x y _ _ E; lia|now apply iota_nodup]|]. intros x X. apply in_map_iff in X as (i & <- & I). apply iota_in in I; [|exact N3]. lia.
      * apply (sides_valid n N3); [lia|exact F].
    + unfold euler. rewrite EL, HL. unfold CapsuleFaces, CapsuleSides. cbn [length]. rewrite map_length, iota_length. lia.
    + unfold NumEdges. rewrite length_sum, EL. cbn [Nat.add]. apply HL.
  - split; [|split; [now apply sharp_closed|split]].
    + intros f F. unfold SharpCapsuleFaces in F. rewrite !in_app_iff in F. destruct F as [F|[F|F]].
      * apply in_map_iff in F as (i & <- & I). apply iota_in in I; [|exact N3]. pose proof (s_step n N3 i I) as ST. cbv beta in ST. cbn [length]. split; [lia|]. split; [repeat apply NoDup_cons; try apply NoDup_nil; cbn [In]; intros K; repeat destruct K as [K|K]; try contradiction; lia|]. intros x [<- |[<- |[<- |[]]]]; lia.
      * apply in_map_iff in F as (i & <- & I). apply iota_in in I; [|exact N3]. pose proof (s_step n N3 i I) as ST. cbv beta in ST. cbn [length]. split; [lia|]. split; [repeat apply NoDup_cons; try apply NoDup_nil; cbn [In]; intros K; repeat destruct K as [K|K]; try contradiction; lia|]. intros x [<- |[<- |[<- |[]]]]; lia.
      * apply (sides_valid n N3); [lia|exact F].
    + unfold euler. rewrite ES, HL. unfold SharpCapsuleFaces, CapsuleSides. rewrite !app_length, !map_length, iota_length. lia.
    + unfold NumEdges. rewrite length_sum, ES. cbn [Nat.add]. apply HL.
Qed.
Print Assumptions C97_capsule.
Example C97_capsule_witness : CapsuleFaces 3 = [[0; 1; 2]; [5; 4; 3]; [1; 0; 3; 4]; [2; 1; 4; 5]; [0; 2; 5; 3]].
Proof. reflexivity. Qed.
