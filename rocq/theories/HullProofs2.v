(** Both sides of the hull. *)
From Coq Require Import Reals Psatz List Bool Permutation Sorting.Sorted.
From Verif Require Import Num NumR ScalarModel ScalarProofs Vec2Model Vec2Spec Vec2Props HullModel HullSpec HullProofs.
Import ListNotations.
Open Scope R_scope.
Ltac Zify.zify_post_hook ::= idtac.

(** ** Sorting *)
Lemma LexSortPred_R (a b : p2) : LexSortPred a b = true <-> lexle a b /\ a <> b.
Proof.
  unfold LexSortPred, lexle. rsimpl. rewrite orb_true_iff, andb_true_iff, !Rltb_true. destruct (Reqb_spec (x2 a) (x2 b)) as [E|E].
  - split; [intros [H|[_ H]]|intros [[H|[_ H]] N]; [now left|]].
    + split; [now left|]. intros ->. lra.
    + split; [right; lra|]. intros ->. lra.
    + right. split; [reflexivity|]. destruct (Rle_lt_or_eq_dec _ _ H) as [L|L]; [exact L|]. exfalso. apply N. now apply v2_ext.
  - split; [intros [H|[H _]]; [|discriminate]|intros [[H|[H _]] N]; [now left|contradiction]]. split; [now left|]. intros ->. lra.
Qed.
Lemma lexInsert_perm (p : p2) l : Permutation (p :: l) (lexInsert p l).
Proof. induction l as [|q l IH]; [reflexivity|]. cbn [lexInsert]. destruct (LexSortPred q p); [|reflexivity]. rewrite perm_swap. now constructor. Qed.
Lemma lexInsert_sorted (p : p2) l : lexsorted l -> lexsorted (lexInsert p l).
Proof.
  induction l as [|q l IH]; intros S; [repeat constructor|]. cbn [lexInsert]. inversion S as [|? ? S1 S2]; subst. destruct (LexSortPred q p) eqn:E.
  - apply LexSortPred_R in E. constructor; [now apply IH|]. apply (Permutation_Forall (lexInsert_perm p l)). constructor; [apply E|exact S2].
  - assert (PQ : lexle p q). { destruct (lexle_total p q) as [H|H]; [exact H|]. destruct (LexSortPred_R q p) as [_ K]. destruct (Req_dec (x2 q) (x2 p)) as [X|X]; [destruct (Req_dec (y2 q) (y2 p)) as [Y|Y]|].
      - replace q with p by (symmetry; now apply v2_ext). apply lexle_refl.
      - rewrite K in E; [discriminate|]. split; [exact H|]. intros ->. now apply Y.
      - rewrite K in E; [discriminate|]. split; [exact H|]. intros ->. now apply X. }
    constructor; [exact S|]. constructor; [exact PQ|]. apply Forall_forall. intros x X. rewrite Forall_forall in S2. apply (lexle_trans _ q); [exact PQ|now apply S2].
Qed.
Lemma lexSort_ok (l : list p2) : lexsorted (lexSort l) /\ Permutation l (lexSort l).
Proof.
  induction l as [|p l [IH1 IH2]]; [split; [constructor|reflexivity]|]. cbn [lexSort fold_right]. split; [now apply lexInsert_sorted|]. rewrite <- lexInsert_perm. now constructor.
Qed.
(** ** The top side is the bottom side of the reflected points *)
Lemma pop_neg (st : list p2) q : hullPop (map neg st) (neg q) = map neg (hullPop st q).
Proof.
  induction st as [|a st IH]; [reflexivity|]. destruct st as [|b st]; [reflexivity|].
  change (map neg (a :: b :: st)) with (neg a :: neg b :: map neg st).
  change (hullPop (neg a :: neg b :: map neg st) (neg q)) with (if nleb (PerpDot2D (neg b) (neg a) (neg q)) n0 then hullPop (map neg (b :: st)) (neg q) else map neg (a :: b :: st)).
  change (hullPop (a :: b :: st) q) with (if nleb (PerpDot2D b a q) n0 then hullPop (b :: st) q else a :: b :: st). rewrite !PerpDot2D_R, turn_neg. destruct (nleb _ _); [exact IH|reflexivity].
Qed.
Lemma chain_neg p l : hullChain (neg p) (map neg l) = map neg (hullChain p l).
Proof.
  unfold hullChain. assert (K : forall l st, fold_left hullPush (map neg l) (map neg st) = map neg (fold_left hullPush l st)); [|exact (K l [p])].
  clear. induction l as [|q l IH]; intros st; [reflexivity|]. cbn [fold_left map]. unfold hullPush at 2. rewrite pop_neg. change (neg q :: map neg (hullPop st q)) with (map neg (hullPush st q)). apply IH.
Qed.
Lemma sorted_app (A : Type) (R : A -> A -> Prop) l1 l2 : StronglySorted R l1 -> StronglySorted R l2 -> (forall a b, In a l1 -> In b l2 -> R a b) -> StronglySorted R (l1 ++ l2).
Proof.
  induction l1 as [|x l1 IH]; intros S1 S2 H; [exact S2|]. inversion S1 as [|? ? S3 S4]; subst. cbn. constructor.
  - apply IH; [exact S3|exact S2|]. intros a b A1 B1. apply H; [now right|exact B1].
  - apply Forall_app. split; [exact S4|]. apply Forall_forall. intros b B1. apply H; [now left|exact B1].
Qed.
Lemma sorted_neg (l : list p2) : lexsorted l -> lexsorted (map neg (rev l)).
Proof.
  induction l as [|p l IH]; intros S; [constructor|]. inversion S as [|? ? S1 S2]; subst. cbn [rev]. rewrite map_app. apply sorted_app; [now apply IH|repeat constructor|].
  intros a b A B. apply in_map_iff in A. destruct A as (a' & <- & A). apply in_rev in A. cbn in B. destruct B as [ <- |[]]. apply lexle_neg. rewrite Forall_forall in S2. now apply S2.
Qed.
(** Neighbouring entries of a stack. *)
Definition adj (st : list p2) (b a : p2) : Prop := exists front below, st = front ++ a :: b :: below.
Lemma adj_in st b a : adj st b a -> In a st /\ In b st.
Proof. intros (f & t & ->). split; apply in_or_app; right; cbn; tauto. Qed.
Lemma adj_neg st b a : adj st b a -> adj (map neg st) (neg b) (neg a).
Proof. intros (f & t & ->). exists (map neg f), (map neg t). now rewrite map_app. Qed.
Lemma good_adj S st b a : good S st -> adj st b a -> lexle b a /\ forall p, S p -> 0 <= turn b a p.
Proof.
  intros G (f & t & E). revert st G E. induction f as [|x f IH]; intros st G ->.
  - cbn [app good] in G. destruct G as (A & B & _). now split.
  - apply (IH (f ++ a :: b :: t)); [|reflexivity]. cbn [app] in G. destruct (f ++ a :: b :: t) as [|y r] eqn:E; [exact I|]. cbn [good] in G |- *. apply G.
Qed.
Lemma good_three S st f a b c t : good S st -> st = f ++ a :: b :: c :: t -> 0 < turn c b a.
Proof.
  revert st. induction f as [|x f IH]; intros st G ->.
  - cbn [app good] in G. apply G.
  - apply (IH (f ++ a :: b :: c :: t)); [|reflexivity]. cbn [app] in G. destruct (f ++ a :: b :: c :: t) as [|y r] eqn:E; [exact I|]. cbn [good] in G |- *. apply G.
Qed.
Lemma cover S st : good S st -> forall p a0 b0 r, st = a0 :: b0 :: r -> lexle (last st p) p -> lexle p a0 -> exists b a, adj st b a /\ lexle b p /\ lexle p a.
Proof.
  induction st as [|a st IH]; intros G p a0 b0 r E B T; [discriminate|]. injection E as -> ->. destruct (lexle_total b0 p) as [H|H].
  - exists b0, a0. split; [exists [], r; reflexivity|]. now split.
  - destruct r as [|c r].
    + cbn in B. exists b0, a0. split; [exists [], []; reflexivity|]. now split.
    + assert (G' : good S (b0 :: c :: r)) by (cbn [good] in G |- *; apply G). destruct (IH G' p b0 c r eq_refl B H) as (b & a & (f & t & E) & K). exists b, a. split; [|exact K]. exists (a0 :: f), t. rewrite E. reflexivity.
Qed.
(** A point above an edge of the bottom side and below one of the top side is in the hull of the four ends. *)
Lemma on_edge (a b p : p2) t : x2 p = x2 b + t * (x2 a - x2 b) -> y2 p = y2 b + t * (y2 a - y2 b) -> p = pl b (sc t (mi a b)).
Proof. intros X Y. apply v2_ext; unfold pl, sc, mi; cbn [x2 y2]; lra. Qed.
Lemma vertical_between b a p : x2 b = x2 a -> lexle b p -> lexle p a -> exists t, 0 <= t <= 1 /\ p = pl b (sc t (mi a b)).
Proof.
  unfold lexle. intros X B A. assert (PX : x2 p = x2 b) by lra. destruct (Req_dec (y2 a) (y2 b)) as [Y|Y].
  - exists 0. split; [lra|]. apply on_edge; lra.
  - exists ((y2 p - y2 b) / (y2 a - y2 b)). split; [split; [apply Rle_mult_inv_pos; lra|apply (Rmult_le_reg_r (y2 a - y2 b)); [lra|]; unfold Rdiv; rewrite Rmult_assoc, Rinv_l by lra; lra]|]. apply on_edge; [replace (x2 a - x2 b) with 0 by lra; lra|field; lra].
Qed.
Lemma slab b a p : x2 b < x2 a -> lexle b p -> lexle p a -> exists t, 0 <= t <= 1 /\ x2 p = x2 b + t * (x2 a - x2 b) /\ (x2 a - x2 b) * (y2 p - (y2 b + t * (y2 a - y2 b))) = turn b a p.
Proof.
  unfold lexle. intros X B A. exists ((x2 p - x2 b) / (x2 a - x2 b)). split; [split; [apply Rle_mult_inv_pos; lra|apply (Rmult_le_reg_r (x2 a - x2 b)); [lra|]; unfold Rdiv; rewrite Rmult_assoc, Rinv_l by lra; lra]|].
  split; [field; lra|tunf; field; lra].
Qed.
Lemma between_edges (A : p2 -> Prop) b a c d p : convex2 A -> A a -> A b -> A c -> A d -> lexle b p -> lexle p a -> lexle c p -> lexle p d -> 0 <= turn b a p -> 0 <= turn d c p -> A p.
Proof.
  intros CV Aa Ab Ac Ad BP PA CP PD T1 T2.
  destruct (Req_dec (x2 b) (x2 a)) as [X|X]; [destruct (vertical_between b a p X BP PA) as (t & T & ->); now apply CV|].
  destruct (Req_dec (x2 c) (x2 d)) as [Y|Y]; [destruct (vertical_between c d p Y CP PD) as (t & T & ->); now apply CV|].
  destruct (slab b a p) as (t & T & Xt & Yt); [unfold lexle in *; lra|assumption|assumption|]. destruct (slab c d p) as (u & U & Xu & Yu); [unfold lexle in *; lra|assumption|assumption|].
  rewrite turn_flip in T2. rewrite <- Yt in T1. assert (T2' : (x2 d - x2 c) * (y2 p - (y2 c + u * (y2 d - y2 c))) <= 0) by lra.
  set (yl := y2 b + t * (y2 a - y2 b)) in *. set (yu := y2 c + u * (y2 d - y2 c)) in *.
  assert (L : yl <= y2 p) by (unfold lexle in *; nra). assert (H : y2 p <= yu) by (unfold lexle in *; nra).
  assert (AL : A (V2 (x2 p) yl)) by (replace (V2 (x2 p) yl) with (pl b (sc t (mi a b))); [now apply CV|symmetry; apply on_edge; [exact Xt|reflexivity]]).
  assert (AU : A (V2 (x2 p) yu)) by (replace (V2 (x2 p) yu) with (pl c (sc u (mi d c))); [now apply CV|symmetry; apply on_edge; [exact Xu|reflexivity]]).
  destruct (vertical_between (V2 (x2 p) yl) (V2 (x2 p) yu) p) as (s & S & E); [reflexivity|right; cbn; lra|right; cbn; lra|]. rewrite E. now apply CV.
Qed.
(** ** Edges of the closed polygon *)
Lemma path_app x l1 l2 : path x (l1 ++ l2) = path x l1 ++ path (last l1 x) l2.
Proof.
  revert x. induction l1 as [|y l1 IH]; intros x; [reflexivity|]. cbn [app path]. rewrite IH. do 2 f_equal. destruct l1 as [|z l1]; [reflexivity|]. f_equal. change (last (y :: z :: l1) x) with (last (z :: l1) x). apply last_any. discriminate.
Qed.
Lemma path_adj x l a b : In (a, b) (path x l) <-> exists f t, x :: l = f ++ a :: b :: t.
Proof.
  revert x. induction l as [|y l IH]; intros x.
  - split; [intros []|]. intros (f & t & E). destruct f as [|? [|? f]]; discriminate.
  - cbn [path In]. rewrite IH. split.
    + intros [E|(f & t & E)]; [injection E as -> ->; exists [], l; reflexivity|]. exists (x :: f), t. cbn. now rewrite E.
    + intros (f & t & E). destruct f as [|z f]; [injection E as -> -> _; now left|]. injection E as _ E. right. now exists f, t.
Qed.
Lemma rev_adj x l a b st : rev st = x :: l -> (In (a, b) (path x l) <-> adj st a b).
Proof.
  intros E. rewrite path_adj, <- E. unfold adj. split; intros (f & t & H).
  - exists (rev t), (rev f). rewrite <- (rev_involutive st), H, rev_app_distr. cbn [rev]. rewrite <- !app_assoc. reflexivity.
  - exists (rev t), (rev f). rewrite H, rev_app_distr. cbn [rev]. rewrite <- !app_assoc. reflexivity.
Qed.
Lemma closed_edges h t e : In e (polygon_edges (h :: t)) <-> In e (path h (t ++ [h])).
Proof.
  unfold polygon_edges. rewrite path_app. cbn [path]. rewrite in_app_iff. cbn [In].
  assert (E : last (h :: t) h = last t h) by (destruct t; reflexivity). rewrite E. tauto.
Qed.
