(** The search for the smallest enclosing disc of an array of points. *)
From Coq Require Import Reals Lra Psatz Bool List Lia Wf_nat.
From Verif Require Import Num NumR ScalarModel ScalarProofs Vec2Model Vec2Spec Vec2Props Flat2Model Flat2Spec Flat2Props Circle2Proofs.
Import ListNotations.
Open Scope R_scope.
Ltac Zify.zify_post_hook ::= idtac.

Lemma optimal3_pos a b c : c2pos (OptimalEnclosingCircle3 a b c) = c2pos (disc3 a b c).
Proof.
  unfold OptimalEnclosingCircle3, disc3, MakeCircleSq. cbv zeta. change (@sub2 R Num_R) with mi. change (@Dot2 R Num_R) with dt. cbn [c2pos].
  assert (X : b = pl (mi b a) a) by (now rewrite pl_mi). assert (Y : c = pl (mi c a) a) by (now rewrite pl_mi).
  repeat match goal with |- context [if ?b then _ else _] => lazymatch b with context [if _ then _ else _] => fail | _ => destruct b end end; cbn [c2pos]; rewrite ?muls2_R;
    try match goal with |- context [smul2 ?s (mi b a)] => generalize s; match goal with |- context [smul2 ?t (mi c a)] => generalize t end; intros ? ? end;
    change (nhalf : R) with (nlit 1%Z 2%positive : R); rewrite ?nlit_R; apply v2_ext; unfold pl, sc, mi, add2, smul2; rsimpl; cbn [x2 y2]; field.
Qed.
Lemma Max3_le (x y z : R) : x <= Max (Max x y) z /\ y <= Max (Max x y) z /\ z <= Max (Max x y) z /\ forall k, x <= k -> y <= k -> z <= k -> Max (Max x y) z <= k.
Proof. rewrite !Max_R. assert (A := Rmax_l x y). assert (B := Rmax_r x y). assert (C := Rmax_l (Rmax x y) z). assert (D := Rmax_r (Rmax x y) z). repeat split; try lra. intros. apply Rmax_lub; [now apply Rmax_lub|lra]. Qed.
Lemma optimal3_encl a b c : encl [a; b; c] (c2pos (OptimalEnclosingCircle3 a b c)) (c2r (OptimalEnclosingCircle3 a b c) - 1 / 100000).
Proof.
  unfold OptimalEnclosingCircle3. cbv zeta. cbn [c2pos c2r]. match goal with |- encl _ ?p _ => set (pos := p) end. clearbody pos. rewrite nlit_R. rsimpl. change (DistanceSq2 ?u ?v) with (sq2 u v).
  assert (M := Max3_le (sq2 pos a) (sq2 pos b) (sq2 pos c)). destruct M as (A & B & C & _). set (m := Max _ _) in *. assert (P := sq2_pos pos a).
  assert (E : encl [a; b; c] pos (sqrt m)) by (apply encl3; lra). intros q I. specialize (E q I). unfold in_disc in *. lra.
Qed.
Lemma optimal3 a b c : good a b c -> let k := OptimalEnclosingCircle3 a b c in smallest_disc [a; b; c] (c2pos k) (c2r k - 1 / 100000).
Proof.
  intros G k. assert (S := disc3_smallest _ _ _ G). assert (E := optimal3_encl a b c). fold k in E. assert (P : c2pos k = c2pos (disc3 a b c)) by apply optimal3_pos. rewrite <- P in S.
  assert (R0 : 0 <= c2r (disc3 a b c)) by (apply (encl_pos [a; b; c] (c2pos k) _ a); [now left|exact (proj1 S)]).
  assert (X : c2r k - 1 / 100000 = c2r (disc3 a b c)); [|now rewrite X]. apply Rle_antisym; [|exact (proj2 S _ _ E)].
  assert (KR : c2r k - 1 / 100000 = sqrt (Max (Max (sq2 (c2pos k) a) (sq2 (c2pos k) b)) (sq2 (c2pos k) c))).
  { unfold k, OptimalEnclosingCircle3. cbv zeta. cbn [c2pos c2r]. rewrite nlit_R. rsimpl. change (DistanceSq2 ?u ?v) with (sq2 u v). match goal with |- ?u + _ - _ = ?v => change v with u end. lra. }
  rewrite KR. rewrite <- (sqrt_square (c2r (disc3 a b c))) by exact R0. apply sqrt_le_1_alt. apply Max3_le; apply in_disc_sq; try exact R0; apply (proj1 S); cbn; tauto.
Qed.
(** Swapping keeps the values. *)
Definition same_values (f g : nat -> p2) (n : nat) : Prop := (forall k, (k < n)%nat -> exists j, (j < n)%nat /\ g k = f j) /\ (forall k, (k < n)%nat -> exists j, (j < n)%nat /\ f k = g j).
Lemma same_refl f n : same_values f f n. Proof. split; intros k H; exists k; auto. Qed.
Lemma same_trans f g h n : same_values f g n -> same_values g h n -> same_values f h n.
Proof.
  intros [A B] [C D]. split; intros k H.
  - destruct (C k H) as (j & J & ->). destruct (A j J) as (i & I & ->). exists i. auto.
  - destruct (B k H) as (j & J & ->). destruct (D j J) as (i & I & ->). exists i. auto.
Qed.
Lemma swap_same f i j n : (i < n)%nat -> (j < n)%nat -> same_values f (arrSwap f i j) n.
Proof.
  intros I J. split; intros k K.
  - unfold arrSwap. destruct (Nat.eqb_spec k i); [exists j; auto|]. destruct (Nat.eqb_spec k j); [exists i; auto|exists k; auto].
  - destruct (Nat.eq_dec k i) as [->|N]; [exists j; split; [exact J|]|destruct (Nat.eq_dec k j) as [->|N']; [exists i; split; [exact I|]|exists k; split; [exact K|]]]; unfold arrSwap.
    + destruct (Nat.eqb_spec j i) as [->|]; [reflexivity|]. now rewrite Nat.eqb_refl.
    + now rewrite Nat.eqb_refl.
    + destruct (Nat.eqb_spec k i); [contradiction|]. destruct (Nat.eqb_spec k j); [contradiction|reflexivity].
Qed.
Lemma extents_same f n : (4 <= n)%nat -> same_values f (extentsFirst f n) n.
Proof.
  intros N. unfold extentsFirst. assert (H : forall l g, (forall i, In i l -> (i < n)%nat) -> same_values f g n -> same_values f (fold_left extentsStep l g) n).
  { induction l as [|i l IH]; intros g L S; [exact S|]. cbn [fold_left]. apply IH; [intros; apply L; now right|]. assert (I : (i < n)%nat) by (apply L; now left).
    assert (Sw : forall h (b : bool) m, (m < 4)%nat -> same_values f h n -> same_values f (if b then arrSwap h m i else h) n).
    { intros h b m M Sh. destruct b; [|exact Sh]. apply (same_trans _ h); [exact Sh|]. apply swap_same; lia. }
    unfold extentsStep. cbv zeta. apply Sw; [lia|]. apply Sw; [lia|]. apply Sw; [lia|]. apply Sw; [lia|]. exact S. }
  apply H; [|apply same_refl]. intros i I. apply in_seq in I. lia.
Qed.
(** The loop: the disc is the smallest one of the first three entries, up to eps; the radius grows with every swap. *)
Definition values_are (f : nat -> p2) (n : nat) (l : list p2) : Prop := (forall k, (k < n)%nat -> In (f k) l) /\ (forall q, In q l -> exists k, (k < n)%nat /\ f k = q).
Lemma values_same f g n l : values_are f n l -> same_values f g n -> values_are g n l.
Proof.
  intros [A B] [C D]. split.
  - intros k K. destruct (C k K) as (j & J & ->). now apply A.
  - intros q I. destruct (B q I) as (k & K & <-). destruct (D k K) as (j & J & ->). exists j. auto.
Qed.
Definition all_good (l : list p2) : Prop := forall p q s, In p l -> In q l -> In s l -> good p q s.
Definition above (l : list p2) (r : R) : nat := length (filter (fun t => Rltb r (c2r (disc3 (fst (fst t)) (snd (fst t)) (snd t)))) (list_prod (list_prod l l) l)).
Lemma filter_less {A} (f g : A -> bool) (l : list A) : (forall x, g x = true -> f x = true) -> (length (filter g l) <= length (filter f l))%nat.
Proof. intros H. induction l as [|x l IH]; [apply le_n|]. cbn [filter]. destruct (g x) eqn:E; [rewrite (H x E); cbn; lia|]. destruct (f x); cbn; lia. Qed.
Lemma filter_fewer {A} (f g : A -> bool) (l : list A) (x : A) : (forall y, g y = true -> f y = true) -> In x l -> f x = true -> g x = false -> (length (filter g l) < length (filter f l))%nat.
Proof.
  intros H I F G. induction l as [|y l IH]; [contradiction|]. cbn [filter]. destruct I as [->|I].
  - rewrite F, G. cbn. assert (L := filter_less f g l H). lia.
  - specialize (IH I). destruct (g y) eqn:E; [rewrite (H y E); cbn; lia|]. destruct (f y); cbn; lia.
Qed.
Lemma above_less l r p q s : In p l -> In q l -> In s l -> r < c2r (disc3 p q s) -> (above l (c2r (disc3 p q s)) < above l r)%nat.
Proof.
  intros P Q S L. unfold above. apply (filter_fewer _ _ _ (p, q, s)).
  - intros t H. apply Rltb_true in H. apply Rltb_true. lra.
  - apply in_prod; [now apply in_prod|exact S].
  - now apply Rltb_true.
  - apply Rltb_false. cbn. lra.
Qed.
Definition tight (l : list p2) (m : circle2 R) : Prop := encl l (c2pos m) (c2r m) /\ forall c' r', encl l c' r' -> c2r m <= r' + 1 / 1000.
Lemma loop_ok (l : list p2) (n : nat) : (4 <= n)%nat -> all_good l -> forall w f i m r, above l r = w -> values_are f n l -> (3 <= i <= n)%nat ->
  smallest_disc [f 0%nat; f 1%nat; f 2%nat] (c2pos m) r -> r <= c2r m <= r + 1 / 1000 -> (forall k, (3 <= k < i)%nat -> in_disc (c2pos m) (c2r m) (f k)) ->
  exists N m', tight l m' /\ forall fuel, (N <= fuel)%nat -> enclosingLoop fuel f n i m = Some m'.
Proof.
  intros N4 G w. induction w as [w IHw] using lt_wf_ind. intros f i m r W V I S R B. remember (n - i)%nat as z eqn:Z. revert i I Z B. induction z as [|z IHz]; intros i I Z B.
  - assert (i = n) by lia. subst i. exists 1%nat, m. split.
    + assert (E : encl [f 0%nat; f 1%nat; f 2%nat] (c2pos m) (c2r m)) by (apply (encl_mono _ _ r); [exact (proj1 S)|lra]). split.
      * intros q Q. destruct (proj2 V q Q) as (k & K & <-). destruct k as [|[|[|k]]]; [apply E; cbn; tauto|apply E; cbn; tauto|apply E; cbn; tauto|]. apply B. lia.
      * intros c' r' E'. assert (r <= r'); [|lra]. apply (proj2 S c'). intros q Q. apply E'. destruct Q as [<-|[<-|[<-|[]]]]; apply (proj1 V); lia.
    + intros fuel F. destruct fuel as [|fuel]; [lia|]. cbn [enclosingLoop]. now rewrite Nat.leb_refl.
  - assert (LT : (i < n)%nat) by lia. assert (R0 : 0 <= c2r m). { assert (0 <= r); [|lra]. apply (encl_pos [f 0%nat; f 1%nat; f 2%nat] (c2pos m) r (f 0%nat)); [now left|exact (proj1 S)]. }
    assert (T : LengthSq2 (sub2 (f i) (c2pos m)) = sq2 (c2pos m) (f i)) by (rewrite sq2_sym; reflexivity).
    destruct (Rleb_spec (sq2 (c2pos m) (f i)) (c2r m * c2r m)) as [L|L].
    + destruct (IHz (i + 1)%nat) as (N & m' & H & F); [lia|lia| |].
      { intros k K. destruct (Nat.eq_dec k i) as [->|]; [now apply in_disc_sq|apply B; lia]. }
      exists (1 + N)%nat, m'. split; [exact H|]. intros fuel K. destruct fuel as [|fuel]; [lia|]. cbn [enclosingLoop]. destruct (Nat.leb_spec n i); [lia|]. rewrite T. rsimpl. rewrite (proj2 (Rleb_true _ _) L). apply F. lia.
    + assert (V0 : In (f 0%nat) l) by (apply (proj1 V); lia). assert (V1 : In (f 1%nat) l) by (apply (proj1 V); lia). assert (V2' : In (f 2%nat) l) by (apply (proj1 V); lia). assert (VI : In (f i) l) by (apply (proj1 V); lia).
      assert (O : ~ in_disc (c2pos m) r (f i)). { intros D. assert (D' : in_disc (c2pos m) (c2r m) (f i)) by (unfold in_disc in *; lra). apply in_disc_sq in D'; [lra|exact R0]. }
      assert (K := smallest4 (f i) (f 0%nat) (f 1%nat) (f 2%nat) (c2pos m) r (G _ _ _ VI V0 V1) (G _ _ _ VI V0 V2') (G _ _ _ VI V1 V2') S O).
      destruct (SmallestCircleSqEnclosing4Points (f i) (f 0%nat) (f 1%nat) (f 2%nat)) as [k red] eqn:EK. destruct K as [S4 K]. set (r' := sqrt (c2r k)) in *. set (c' := pl (c2pos k) (f i)) in *.
      assert (RL : r < r').
      { assert (E : encl [f 0%nat; f 1%nat; f 2%nat] c' r') by (intros q Q; apply (proj1 S4); now right). assert (LE := proj2 S _ _ E). destruct (Rle_lt_or_eq_dec _ _ LE) as [LL|LL]; [exact LL|]. exfalso. apply O. rewrite <- LL in E, S4.
        assert (c' = c2pos m) by (apply (smallest_unique [f 0%nat; f 1%nat; f 2%nat] _ r); [discriminate|exact S|exact E]). rewrite <- H. apply (proj1 S4). now left. }
      assert (RED : (red < 3)%nat) by (destruct K as [[-> _]|[[-> _]|[-> _]]]; lia).
      set (g := arrSwap f i red). assert (V' : values_are g n l) by (apply (values_same f); [exact V|apply swap_same; lia]).
      assert (S3 : smallest_disc [g 0%nat; g 1%nat; g 2%nat] c' r').
      { unfold g, arrSwap. destruct (Nat.eqb_spec 0 i); [lia|]. destruct (Nat.eqb_spec 1 i); [lia|]. destruct (Nat.eqb_spec 2 i); [lia|]. destruct K as [[-> K]|[[-> K]|[-> K]]]; cbn [Nat.eqb]; exact K. }
      assert (W0 : In (g 0%nat) l) by (apply (proj1 V'); lia). assert (W1 : In (g 1%nat) l) by (apply (proj1 V'); lia). assert (W2 : In (g 2%nat) l) by (apply (proj1 V'); lia).
      assert (RR : r' = c2r (disc3 (g 0%nat) (g 1%nat) (g 2%nat))) by (apply (smallest_radius [g 0%nat; g 1%nat; g 2%nat] c' _ (c2pos (disc3 (g 0%nat) (g 1%nat) (g 2%nat)))); [exact S3|apply disc3_smallest; now apply G]).
      assert (LW : (above l r' < w)%nat) by (rewrite <- W, RR; apply above_less; auto; now rewrite <- RR).
      set (m1 := Circ2 (add2 (c2pos k) (f i)) (nsqrt (c2r k) + nlit 1%Z 1000%positive)%num).
      destruct (IHw (above l r') LW g 3%nat m1 r' eq_refl V') as (N & m' & H & F); [lia|exact S3| | |].
      { unfold m1. cbn [c2r]. rewrite nlit_R. change (r' <= r' + 1 / 1000 <= r' + 1 / 1000). lra. }
      { intros j J. lia. }
      exists (1 + N)%nat, m'. split; [exact H|]. intros fuel FU. destruct fuel as [|fuel]; [lia|]. cbn [enclosingLoop]. destruct (Nat.leb_spec n i); [lia|]. rewrite T. rsimpl.
      replace (Rleb _ _) with false by (symmetry; apply Rleb_false; lra). rewrite EK. apply F. lia.
Qed.
