(** C104: Circle2D. *)
From Coq Require Import Reals Lra Psatz Bool List Lia.
From Verif Require Import Num NumR ScalarModel ScalarProofs Vec2Model Vec2Spec Vec2Props HullModel HullSpec HullProps2 Flat2Model Flat2Spec Flat2Props Circle2Proofs Circle2Proofs2.
Import ListNotations.
Open Scope R_scope.
Ltac Zify.zify_post_hook ::= idtac.

(** Containment and distances. *)
Theorem C104_disc (c : circle2 R) (p : p2) (e : R) : 0 <= c2r c ->
  (Circle2D_Contains c p = true <-> in_disc (c2pos c) (c2r c) p) /\
  (0 <= e -> (Circle2D_ContainsEps c p (e * (2 * c2r c + e)) = true <-> in_disc (c2pos c) (c2r c + e) p)) /\
  distance2_is (in_disc (c2pos c) (c2r c)) (eq p) (Circle2D_Distance c p) /\
  (Circle2D_Contains c p = true <-> Circle2D_SignedDistance c p <= 0) /\
  (~ in_disc (c2pos c) (c2r c) p -> Circle2D_SignedDistance c p = Circle2D_Distance c p) /\
  (forall q, dst (c2pos c) q = c2r c -> - Circle2D_SignedDistance c p <= dst p q).
Proof.
  intros R0. assert (CO : Circle2D_Contains c p = true <-> in_disc (c2pos c) (c2r c) p).
  { unfold Circle2D_Contains. rsimpl. rewrite Rleb_true. change (DistanceSq2 ?u ?v) with (sq2 u v). now rewrite in_disc_sq. }
  assert (SD : Circle2D_SignedDistance c p = dst (c2pos c) p - c2r c) by (unfold Circle2D_SignedDistance; rewrite Distance2_R; reflexivity).
  assert (DI : Circle2D_Distance c p = Rmax 0 (dst (c2pos c) p - c2r c)) by (unfold Circle2D_Distance; rewrite Distance2_R; apply Max_R).
  split; [exact CO|]. split; [|split; [|split; [|split]]].
  - intros E. unfold Circle2D_ContainsEps. rsimpl. rewrite Rleb_true. change (DistanceSq2 ?u ?v) with (sq2 u v). rewrite in_disc_sq by lra. replace ((c2r c + e) * (c2r c + e)) with (c2r c * c2r c + e * (2 * c2r c + e)) by ring. tauto.
  - rewrite DI. assert (P := dst_pos (c2pos c) p). split.
    + destruct (Rle_dec (dst (c2pos c) p) (c2r c)) as [L|L].
      * exists p, p. split; [exact L|]. split; [reflexivity|]. rewrite Rmax_left by lra. unfold dst, nrm, dt, mi. cbn [x2 y2]. replace ((x2 p - x2 p) * (x2 p - x2 p) + (y2 p - y2 p) * (y2 p - y2 p)) with 0 by ring. apply sqrt_0.
      * set (d := dst (c2pos c) p) in *. set (t := c2r c / d). assert (T : t * d = c2r c) by (unfold t; field; lra). assert (T0 : 0 <= t) by (unfold t; apply Rmult_le_pos; [lra|left; apply Rinv_0_lt_compat; lra]). assert (T1 : t <= 1) by nra.
        assert (SQ : sq2 (c2pos c) p = d * d) by (symmetry; apply sq2_dst).
        assert (A : forall u v k, 0 <= k -> sq2 u v = k * k -> dst u v = k) by (intros u v k K H; unfold dst, nrm; change (sqrt (sq2 u v) = k); rewrite H; now apply sqrt_square).
        exists (pl (c2pos c) (sc t (mi p (c2pos c)))), p. split; [|split; [reflexivity|]].
        -- unfold in_disc. rewrite (A _ _ (c2r c)); [lra|exact R0|]. transitivity (t * t * sq2 (c2pos c) p); [unfold sq2, dt, mi, pl, sc; cbn [x2 y2]; ring|]. rewrite SQ, <- T. ring.
        -- rewrite Rmax_right by lra. apply A; [lra|]. transitivity ((1 - t) * (1 - t) * sq2 (c2pos c) p); [unfold sq2, dt, mi, pl, sc; cbn [x2 y2]; ring|]. rewrite SQ. replace (d - c2r c) with (d - t * d) by lra. ring.
    + intros a b D <-. apply Rmax_lub; [apply dst_pos|]. unfold in_disc in D. assert (Q := dst_triangle (c2pos c) a p). lra.
  - rewrite CO, SD. unfold in_disc. lra.
  - intros N. rewrite SD, DI, Rmax_right; [reflexivity|]. unfold in_disc in N. lra.
  - intros q Q. rewrite SD. assert (K := dst_triangle (c2pos c) p q). lra.
Qed.
Print Assumptions C104_disc.
Example C104_disc_witness : let c := Circ2 (V2 0 0) 1 in 0 <= c2r c /\ Circle2D_Distance c (V2 3 4) = 4.
Proof.
  split; [cbn; lra|]. unfold Circle2D_Distance. rewrite Distance2_R. cbn [c2pos c2r]. unfold dst, nrm, dt, mi. cbn [x2 y2]. replace ((0 - 3) * (0 - 3) + (0 - 4) * (0 - 4)) with (5 * 5) by ring. rewrite sqrt_square by lra.
  change (Max 0 (5 - 1) = 4). rewrite Max_R. rewrite Rmax_right; lra.
Qed.
Lemma spread_good a b c : spread3 a b c -> good a b c.
Proof. unfold spread3, good, good3. cbv zeta. rewrite gram_area. intros [H|H]; [left; rewrite H; ring|now right]. Qed.
(** One to three points: enclosed, and the disc is the smallest one widened by 1e-5. *)
Theorem C104_three (a b c : p2) :
  (let k := OptimalEnclosingCircle3 a b c in (forall q, In q [a; b; c] -> in_disc (c2pos k) (c2r k) q) /\ (spread3 a b c -> smallest_disc [a; b; c] (c2pos k) (c2r k - 1 / 100000))) /\
  (let k := OptimalEnclosingCircle2 a b in smallest_disc [a; b] (c2pos k) (c2r k - 1 / 100000) /\ c2r k = dst a b / 2 + 1 / 100000) /\
  (forall fuel, OptimalEnclosingCircleArray fuel [a] = Some (Circ2 a 0) /\ OptimalEnclosingCircleArray fuel [a; b] = Some (OptimalEnclosingCircle2 a b) /\ OptimalEnclosingCircleArray fuel [a; b; c] = Some (OptimalEnclosingCircle3 a b c)).
Proof.
  split; [|split; [|intros; repeat split]].
  - intros k. split.
    + intros q I. assert (E := optimal3_encl a b c q I). fold k in E. unfold in_disc in *. lra.
    + intros S. apply optimal3. now apply spread_good.
  - intros k. assert (KP : c2pos k = sc (1 / 2) (pl a b)) by (unfold k, OptimalEnclosingCircle2; cbn [c2pos]; change (nhalf : R) with (nlit 1%Z 2%positive : R); rewrite muls2_R, nlit_R; reflexivity).
    assert (KR : c2r k = sqrt (sq2 a b / 4) + 1 / 100000).
    { unfold k, OptimalEnclosingCircle2. cbn [c2r]. cbv zeta. fold (OptimalEnclosingCircle2 a b). change (muls2 (add2 a b) nhalf) with (c2pos k). rewrite KP, nlit_R, Max_R. change (DistanceSq2 ?u ?v) with (sq2 u v).
      assert (A : sq2 (sc (1 / 2) (pl a b)) a = sq2 a b / 4) by (unfold sq2, dt, mi, sc, pl; cbn [x2 y2]; field). assert (B : sq2 (sc (1 / 2) (pl a b)) b = sq2 a b / 4) by (unfold sq2, dt, mi, sc, pl; cbn [x2 y2]; field).
      rewrite A, B, Rmax_left by lra. rsimpl. reflexivity. }
    assert (P := sq2_pos a b). rewrite KR, KP. split.
    + replace (sqrt (sq2 a b / 4) + 1 / 100000 - 1 / 100000) with (sqrt (sq2 a b / 4)) by ring. apply mid_pair; [now left|right; now left|]. intros q [<-|[<-|[]]]; (apply in_disc_sqrt; [lra|]); right; unfold sq2, dt, mi, sc, pl; cbn [x2 y2]; field.
    + f_equal. rewrite <- (sq2_dst a b). replace (dst a b * dst a b / 4) with ((dst a b / 2) * (dst a b / 2)) by field. apply sqrt_square. assert (Q := dst_pos a b). lra.
Qed.
Print Assumptions C104_three.
Example C104_three_witness : spread3 (V2 0 0) (V2 4 0) (V2 1 3) /\ area2 (mi (V2 4 0) (V2 0 0)) (mi (V2 1 3) (V2 0 0)) = 12.
Proof. unfold spread3, area2, mi. cbn [x2 y2]. split; [right|]; lra. Qed.
(** Four points or more whose hull has four corners or more: the search ends, and finds a disc at most 1e-3 larger than the smallest. *)
Lemma disc_convex c r : convex2 (in_disc c r).
Proof.
  intros a b t T A B. unfold in_disc in *. assert (R0 : 0 <= r) by (assert (P := dst_pos c a); lra). change (in_disc c r (pl a (sc t (mi b a)))).
  apply in_disc_sq; [exact R0|]. assert (A' : sq2 c a <= r * r) by (now apply in_disc_sq). assert (B' : sq2 c b <= r * r) by (now apply in_disc_sq). rewrite sq2_sym in A', B'. rewrite sq2_sym.
  assert (I : sq2 (pl a (sc t (mi b a))) c + t * (1 - t) * sq2 a b = (1 - t) * sq2 a c + t * sq2 b c) by (unfold sq2, dt, mi, pl, sc; cbn [x2 y2]; ring).
  assert (P : 0 <= t * (1 - t) * sq2 a b) by (apply Rmult_le_pos; [nra|apply sq2_pos]). nra.
Qed.
Lemma array_four (pts : list p2) (fuel : nat) : (4 <= length pts)%nat -> OptimalEnclosingCircleArray fuel pts =
  let hull := ConvexHullInPlace pts in let f := extentsFirst (fun k => nth k (hull ++ skipn (length hull) (lexSort pts)) (V2 0 0)) (length hull) in
  enclosingLoop fuel f (length hull) 3 (OptimalEnclosingCircle3 (f 0%nat) (f 1%nat) (f 2%nat)).
Proof. destruct pts as [|a [|b [|c [|d l]]]]; cbn [length]; try lia. intros _. reflexivity. Qed.
Theorem C104_array (pts : list p2) : (4 <= length pts)%nat -> (4 <= length (ConvexHullInPlace pts))%nat -> (forall p q s, In p pts -> In q pts -> In s pts -> spread3 p q s) ->
  exists N m, (forall fuel, (N <= fuel)%nat -> OptimalEnclosingCircleArray fuel pts = Some m) /\
  (forall q, In q pts -> in_disc (c2pos m) (c2r m + 1 / 500) q) /\
  ((forall a b, In a pts -> In b pts -> a <> b -> 1 / 1000 < dst a b) -> forall q, In q pts -> in_disc (c2pos m) (c2r m) q) /\
  (forall c r, (forall q, In q pts -> in_disc c r q) -> c2r m <= r + 1 / 1000).
Proof.
  intros L4 H4 SP. assert (NE : pts <> []) by (intros ->; cbn in H4; lia). destruct (C83_hull pts NE) as (_ & HIN & HNEAR).
  set (h := ConvexHullInPlace pts) in *. set (n := length h) in *. set (f0 := fun k => nth k (h ++ skipn n (lexSort pts)) (V2 0 0)). set (f := extentsFirst f0 n).
  assert (G : all_good h) by (intros p q s P Q S; apply spread_good, SP; now apply HIN).
  assert (V0 : values_are f0 n h).
  { unfold f0. split.
    - intros k K. rewrite app_nth1 by exact K. now apply nth_In.
    - intros q Q. destruct (In_nth h q (V2 0 0) Q) as (k & K & E). exists k. split; [exact K|]. rewrite app_nth1 by exact K. exact E. }
  assert (V : values_are f n h) by (apply (values_same f0); [exact V0|now apply extents_same]).
  assert (I0 : In (f 0%nat) h) by (apply (proj1 V); lia). assert (I1 : In (f 1%nat) h) by (apply (proj1 V); lia). assert (I2 : In (f 2%nat) h) by (apply (proj1 V); lia).
  assert (O := optimal3 _ _ _ (G _ _ _ I0 I1 I2)). cbv zeta in O. set (m0 := OptimalEnclosingCircle3 (f 0%nat) (f 1%nat) (f 2%nat)) in *.
  destruct (loop_ok h n H4 G _ f 3%nat m0 (c2r m0 - 1 / 100000) eq_refl V) as (N & m & [E M] & F); [lia|exact O|lra|intros; lia|].
  exists N, m. split; [intros fuel K; rewrite (array_four pts fuel L4); now apply F|]. split; [|split].
  - intros q Q. destruct (HNEAR q Q) as (z & Z & D). specialize (Z (in_disc (c2pos m) (c2r m)) (disc_convex _ _) E). unfold in_disc in *. assert (T := dst_triangle (c2pos m) z q). rewrite (dst_sym z q) in T. lra.
  - intros FAR q Q. exact (proj1 (C83_exact pts NE FAR) q Q (in_disc (c2pos m) (c2r m)) (disc_convex _ _) E).
  - intros c r H. apply (M c). intros q Q. apply H, HIN, Q.
Qed.
Print Assumptions C104_array.
Example C104_array_witness : (4 <= length demo)%nat /\ length (ConvexHullInPlace demo) = 4%nat /\ (forall p q s, In p demo -> In q demo -> In s demo -> spread3 p q s) /\ (forall a b, In a demo -> In b demo -> a <> b -> 1 / 1000 < dst a b).
Proof.
  destruct C83_witness as (FAR & _ & H). split; [cbn; lia|]. split; [rewrite H; reflexivity|]. split; [|exact FAR].
  intros p q s P Q S. unfold demo in P, Q, S. unfold spread3, area2, mi. cbn [In] in P, Q, S.
  repeat (destruct P as [<-|P]; [repeat (destruct Q as [<-|Q]; [repeat (destruct S as [<-|S]; [cbn [x2 y2]; first [left; lra|right; lra]|]); destruct S|]); destruct Q|]); destruct P.
Qed.
(** The first four entries of the array as a list. *)
Definition lswap (l : list p2) (i j : nat) : list p2 := map (fun k => nth (if Nat.eqb k i then j else if Nat.eqb k j then i else k) l (V2 0 0)) [0; 1; 2; 3]%nat.
Definition agree (f : nat -> p2) (l : list p2) : Prop := forall k, (k < 4)%nat -> f k = nth k l (V2 0 0).
Definition lsw (c : p2 -> p2 -> bool) (m : nat) (l : list p2) (i : nat) : list p2 := if c (nth m l (V2 0 0)) (nth i l (V2 0 0)) then lswap l m i else l.
Lemma agree_swap f l i j : agree f l -> (i < 4)%nat -> (j < 4)%nat -> agree (arrSwap f i j) (lswap l i j).
Proof.
  intros A I J k K. unfold arrSwap, lswap. assert (E : nth k (map (fun k => nth (if Nat.eqb k i then j else if Nat.eqb k j then i else k) l (V2 0 0)) [0; 1; 2; 3]%nat) (V2 0 0) = nth (if Nat.eqb k i then j else if Nat.eqb k j then i else k) l (V2 0 0)) by (destruct k as [|[|[|[|k]]]]; [reflexivity|reflexivity|reflexivity|reflexivity|lia]).
  rewrite E. destruct (Nat.eqb k i); [now apply A|]. destruct (Nat.eqb k j); now apply A.
Qed.
Lemma agree_step f l i : (i < 4)%nat -> agree f l -> agree (extentsStep f i)
  (lsw (fun p q => Rltb (y2 q) (y2 p)) 3 (lsw (fun p q => Rltb (y2 p) (y2 q)) 2 (lsw (fun p q => Rltb (x2 q) (x2 p)) 1 (lsw (fun p q => Rltb (x2 p) (x2 q)) 0 l i) i) i) i).
Proof.
  intros I A. unfold extentsStep. cbv zeta.
  assert (S : forall (c : p2 -> p2 -> bool) m g l', (m < 4)%nat -> agree g l' -> agree (if c (g m) (g i) then arrSwap g m i else g) (lsw c m l' i)).
  { intros c m g l' M G. unfold lsw. rewrite (G m M), (G i I). destruct (c _ _); [now apply agree_swap|exact G]. }
  apply (S (fun p q => Rltb (y2 q) (y2 p)) 3%nat); [lia|]. apply (S (fun p q => Rltb (y2 p) (y2 q)) 2%nat); [lia|]. apply (S (fun p q => Rltb (x2 q) (x2 p)) 1%nat); [lia|]. apply (S (fun p q => Rltb (x2 p) (x2 q)) 0%nat); [lia|exact A].
Qed.
Lemma agree_steps f i l l1 l2 l3 l4 : agree f l -> (i < 4)%nat -> lsw (fun p q => Rltb (x2 p) (x2 q)) 0 l i = l1 -> lsw (fun p q => Rltb (x2 q) (x2 p)) 1 l1 i = l2 ->
  lsw (fun p q => Rltb (y2 p) (y2 q)) 2 l2 i = l3 -> lsw (fun p q => Rltb (y2 q) (y2 p)) 3 l3 i = l4 -> agree (extentsStep f i) l4.
Proof. intros A I <- <- <- <-. now apply agree_step. Qed.
Ltac ldec := unfold lsw; cbn [nth]; match goal with |- context [Rltb ?u ?v] =>
  first [replace (Rltb u v) with false by (symmetry; apply Rltb_false; cbn [x2 y2]; lra)|replace (Rltb u v) with true by (symmetry; apply Rltb_true; cbn [x2 y2]; lra)] end; cbv [lswap map nth Nat.eqb]; reflexivity.
(** A triangle and a point inside it: the lowest corner is swapped out of sight and left outside. *)
Definition lost : list p2 := [V2 0 2; V2 2 0; V2 4 3; V2 2 (3/2)].
Theorem C104_array_refuted : exists m, (forall fuel, (1 <= fuel)%nat -> OptimalEnclosingCircleArray fuel lost = Some m) /\ c2r m + 2 / 5 < dst (c2pos m) (V2 2 0).
Proof.
  assert (S : lexSort lost = [V2 0 2; V2 2 0; V2 2 (3/2); V2 4 3]) by (unfold lexSort, lost; dec; reflexivity).
  assert (H : ConvexHullInPlace lost = [V2 0 2; V2 2 0; V2 4 3]).
  { rewrite inplace_R. assert (B : hullBoth (lexSort lost) = [V2 0 2; V2 2 0; V2 4 3]) by (rewrite S; unfold hullBoth, hullChain, hullPush; dec; reflexivity).
    rewrite B. apply finish_same.
    - repeat constructor; cbn [In]; intros K; repeat destruct K as [K|K]; try contradiction; apply (f_equal x2) in K; cbn in K; lra.
    - intros a b X Y N. destruct (Rlt_or_le (1 / 1000) (dst a b)) as [K|K]; [exact K|]. exfalso. assert (Q : sq2 a b <= 1 / 1000000) by (rewrite <- sq2_dst; assert (P := dst_pos a b); nra).
      cbn [In] in X, Y. repeat (destruct X as [<-|X]; [repeat (destruct Y as [<-|Y]; [try (now apply N); unfold sq2, dt, mi in Q; cbn in Q; lra|]); destruct Y|]); destruct X. }
  set (f := extentsFirst (fun k => nth k ([V2 0 2; V2 2 0; V2 4 3] ++ skipn 3 (lexSort lost)) (V2 0 0)) 3).
  assert (F : f 0%nat = V2 4 3 /\ f 1%nat = V2 0 2 /\ f 2%nat = V2 4 3).
  { unfold f, extentsFirst. rewrite S. cbn [seq fold_left skipn app]. set (f0 := fun k => nth k _ _). assert (A0 : agree f0 [V2 0 2; V2 2 0; V2 4 3; V2 4 3]) by (intros k K; reflexivity). clearbody f0.
    eapply (agree_steps _ 0) in A0; [|lia|ldec|ldec|ldec|ldec]. set (f1 := extentsStep f0 0) in *. clearbody f1.
    eapply (agree_steps _ 1) in A0; [|lia|ldec|ldec|ldec|ldec]. set (f2 := extentsStep f1 1) in *. clearbody f2.
    eapply (agree_steps _ 2) in A0; [|lia|ldec|ldec|ldec|ldec]. set (f3 := extentsStep f2 2) in *. clearbody f3.
    rewrite (A0 0%nat), (A0 1%nat), (A0 2%nat) by lia. repeat split. }
  destruct F as (F0 & F1 & F2). exists (OptimalEnclosingCircle3 (V2 4 3) (V2 0 2) (V2 4 3)). split.
  - intros fuel K. rewrite array_four by (cbn; lia). cbv zeta. rewrite H. change (length [V2 0 2; V2 2 0; V2 4 3]) with 3%nat. fold f. rewrite F0, F1, F2. destruct fuel; [lia|]. reflexivity.
  - set (m := OptimalEnclosingCircle3 (V2 4 3) (V2 0 2) (V2 4 3)).
    assert (SP : spread3 (V2 4 3) (V2 0 2) (V2 4 3)) by (left; unfold area2, mi; cbn; ring). destruct (C104_three (V2 4 3) (V2 0 2) (V2 4 3)) as [[_ SM] _]. specialize (SM SP). fold m in SM.
    assert (Z : c2pos m = V2 2 (5 / 2)). { symmetry. apply (smallest_unique [V2 4 3; V2 0 2; V2 4 3] _ (c2r m - 1 / 100000)); [discriminate|exact SM|].
      assert (P : smallest_disc [V2 4 3; V2 0 2; V2 4 3] (sc (1 / 2) (pl (V2 4 3) (V2 0 2))) (sqrt (sq2 (V2 4 3) (V2 0 2) / 4))).
      { apply mid_pair; [cbn; tauto|cbn; tauto|]. apply encl3; unfold sq2, dt, mi, sc, pl; cbn [x2 y2]; lra. }
      rewrite (smallest_radius _ _ _ _ _ SM P). replace (V2 2 (5 / 2)) with (sc (1 / 2) (pl (V2 4 3) (V2 0 2))) by (unfold sc, pl; cbn; f_equal; field). exact (proj1 P). }
    assert (RM : c2r m - 1 / 100000 <= 207 / 100). { apply (proj2 SM (V2 2 (5 / 2))). intros q Q. apply in_disc_sq; [lra|]. cbn [In] in Q. destruct Q as [<-|[<-|[<-|[]]]]; unfold sq2, dt, mi; cbn [x2 y2]; lra. }
    assert (D : dst (c2pos m) (V2 2 0) = 5 / 2) by (rewrite Z; unfold dst, nrm, dt, mi; cbn [x2 y2]; replace ((2 - 2) * (2 - 2) + (5 / 2 - 0) * (5 / 2 - 0)) with ((5 / 2) * (5 / 2)) by ring; apply sqrt_square; lra). rewrite D. lra.
Qed.
Print Assumptions C104_array_refuted.
(** A small triangle counts as flat: the disc is far from the smallest. *)
Theorem C104_small_refuted : exists a b c : p2, exists c' r', (forall q, In q [a; b; c] -> in_disc c' r' q) /\ 0 < r' /\ r' * (7 / 5) < c2r (OptimalEnclosingCircle3 a b c).
Proof.
  exists (V2 0 0), (V2 (1 / 20) 0), (V2 (1 / 40) (1 / 25)), (V2 (1 / 40) (1 / 80)), (7 / 250). split; [|split; [lra|]].
  - intros q [<-|[<-|[<-|[]]]]; (apply in_disc_sq; [lra|]); unfold sq2, dt, mi; cbn [x2 y2]; lra.
  - unfold OptimalEnclosingCircle3, Dot2, sub2, add2, muls2. cbv zeta. cbn [x2 y2 c2r]. rewrite Abs_R, !Max_R. change (nhalf : R) with (nlit 1%Z 2%positive : R). rewrite !nlit_R. rsimpl.
    match goal with |- context [Rltb (Rabs ?u) ?v] => replace (Rltb (Rabs u) v) with true by (symmetry; apply Rltb_true; apply Rabs_def1; lra) end.
    repeat (cbn [x2 y2]; match goal with |- context [Rltb ?a ?b] => first [replace (Rltb a b) with true by (symmetry; apply Rltb_true; lra)|replace (Rltb a b) with false by (symmetry; apply Rltb_false; lra)] end).
    cbn [x2 y2]. change (DistanceSq2 ?u ?v) with (sq2 u v). match goal with |- context [sq2 ?p (V2 (1 / 40) (1 / 25))] => assert (Q : (1 / 25) * (1 / 25) <= sq2 p (V2 (1 / 40) (1 / 25))) by (unfold sq2, dt, mi; cbn [x2 y2]; lra) end.
    match goal with |- _ < sqrt ?m + _ => assert (L : 1 / 25 <= sqrt m) end; [|lra]. apply Rle_trans with (sqrt (1 / 25 * (1 / 25))); [rewrite sqrt_square; lra|]. apply sqrt_le_1_alt. eapply Rle_trans; [exact Q|apply Rmax_r].
Qed.
Print Assumptions C104_small_refuted.
(** The random point is in the disc whatever the generator returns. *)
Theorem C104_random (tries : nat) (c : circle2 R) (draws : list (R * R)) : 0 <= c2r c -> in_disc (c2pos c) (c2r c) (Circle2D_RandomPointInside tries c draws).
Proof.
  intros R0. revert draws. induction tries as [|n IH]; intros draws; cbn [Circle2D_RandomPointInside].
  2: destruct draws as [|[a b] rest]. 3: unfold LengthSq2; cbn [x2 y2]; rsimpl; destruct (Rleb_spec (a * a + b * b) (c2r c * c2r c)) as [L|L]; [|apply IH].
  1-2: apply in_disc_sq; [exact R0|]; replace (sq2 (c2pos c) (c2pos c)) with 0 by (unfold sq2, dt, mi; cbn [x2 y2]; ring); nra.
  apply in_disc_sq; [exact R0|]. replace (sq2 (c2pos c) (add2 (c2pos c) (V2 a b))) with (a * a + b * b) by (unfold sq2, dt, mi, add2; cbn [x2 y2]; rsimpl; ring). exact L.
Qed.
Print Assumptions C104_random.
Example C104_random_witness : Circle2D_RandomPointInside 1000 (Circ2 (V2 1 1) 1) [(1, 1); (1 / 2, 1 / 2)] = V2 (3 / 2) (3 / 2).
Proof.
  change 1000%nat with (S (S 998)). generalize 998%nat. intros k. cbn [Circle2D_RandomPointInside]. unfold LengthSq2, add2. cbn [x2 y2 c2r c2pos]. rsimpl.
  replace (Rleb (1 * 1 + 1 * 1) (1 * 1)) with false by (symmetry; apply Rleb_false; lra). replace (Rleb (1 / 2 * (1 / 2) + 1 / 2 * (1 / 2)) (1 * 1)) with true by (symmetry; apply Rleb_true; lra). f_equal; field.
Qed.
