(** C107: the smallest enclosing rectangle (float2::MinAreaRectInPlace). *)
From Coq Require Import Reals Lra Psatz Bool List Lia PeanoNat.
From Verif Require Import Num NumR ScalarModel ScalarProofs Vec2Model Vec2Spec Vec2Props HullModel HullSpec HullProofs HullProps2 MinRectModel MinRectSpec MinRectProofs MinRectProofs2 MinRectProofs3.
Import ListNotations.
Open Scope R_scope.
Lemma path_nth (vs : list p2) d : forall a i, (i < length vs)%nat -> In (nth i (a :: vs) d, nth i vs d) (path a vs).
Proof. induction vs as [|v vs IH]; intros a i I; [cbn in I; lia|]. destruct i as [|i]; [now left|]. right. apply IH. cbn in I. lia. Qed.
Lemma last_nth (l : list p2) d : last l d = nth (length l - 1) l d.
Proof. induction l as [|x l IH]; [reflexivity|]. destruct l as [|y l]; [reflexivity|]. change (last (x :: y :: l) d) with (last (y :: l) d). rewrite IH. cbn. now rewrite Nat.sub_0_r. Qed.
Lemma edge_index (p : list p2) i : (i < length p)%nat -> In (pointAt p i, pointAt p (nextP (length p) i)) (polygon_edges p).
Proof.
  intros I. destruct p as [|v p]; [cbn in I; lia|]. unfold polygon_edges. set (vs := v :: p) in *. unfold nextP. destruct (Nat.ltb_spec (S i) (length vs)) as [L|L].
  - exact (path_nth vs (V2 0 0) (last vs v) (S i) L).
  - assert (E : pointAt vs i = last vs v). { rewrite last_nth. replace i with (length vs - 1)%nat by lia. apply nth_indep. cbn. lia. }
    rewrite E. exact (path_nth vs (V2 0 0) (last vs v) 0 ltac:(cbn; lia)).
Qed.
Definition apart (pts : list p2) : Prop := forall a b, In a pts -> In b pts -> a <> b -> 1 / 1000 < dst a b.
Lemma ccw_calok p : ccw_polygon p -> (3 <= length p)%nat -> apart p -> calok p.
Proof.
  intros C L A. split; [lia|]. intros i I a b. pose proof (edge_index p i I) as E. fold a b in E. destruct (edge_in p a b E) as [IA IB].
  assert (NE : b <> a). { destruct (succ_edge p b IB) as (c & E2 & _). destruct C as (_ & C & _). specialize (C a b c E E2). intros Z. rewrite Z, turn_stay in C. lra. }
  split; [now apply A|]. intros v V. split; [now apply (proj2 (proj2 C))|]. intros Z.
  destruct (Classical_Prop.classic (v = a)) as [->|N1]; [unfold dt, mi; cbn; lra|]. destruct (Classical_Prop.classic (v = b)) as [->|N2]; [unfold dt; nra|].
  pose proof (strict_edge p a b v C E V N1 N2). lra.
Qed.
Lemma two_calok (a b : p2) : 1 / 1000 < dst a b -> calok [a; b].
Proof.
  intros D. split; [cbn; lia|]. intros i I. cbn in I. assert (T : i = 0%nat \/ i = 1%nat) by lia. destruct T as [->| ->]; unfold pointAt, nextP; cbn -[dst turn dt mi].
  - split; [now rewrite dst_sym|]. intros v [<-|[<-|[]]]; [rewrite turn_back|rewrite turn_same]; (split; [lra|]); intros _; [unfold dt, mi; cbn; lra|unfold dt; nra].
  - split; [exact D|]. intros v [<-|[<-|[]]]; [rewrite turn_same|rewrite turn_back]; (split; [lra|]); intros _; [unfold dt; nra|unfold dt, mi; cbn; lra].
Qed.
Lemma trim_stop (first : p2) kept b a r : hullTrim kept first = b :: a :: r -> 1 / 1000 <= dst b first.
Proof.
  induction kept as [|k kept IH]; [discriminate|]. destruct kept as [|k' kept]; [discriminate|].
  change (hullTrim (k :: k' :: kept) first) with (if nltb (DistSq2D k first) (nlit 1%Z 1000000%positive) then hullTrim (k' :: kept) first else k :: k' :: kept).
  destruct (nltb (DistSq2D k first) (nlit 1%Z 1000000%positive)) eqn:F; [exact IH|]. intros E. injection E as -> -> ->. destruct (Rle_lt_dec (1/1000) (dst b first)) as [L|L]; [exact L|]. apply close_R in L. rewrite L in F. discriminate.
Qed.
Lemma finish_two h a b : finish h = [a; b] -> a <> b.
Proof.
  destruct h as [|h0 rest]; [discriminate|]. unfold finish. destruct (dedupe_ok rest [h0] h0 [] eq_refl) as (new & -> & _ & _). set (kept := new ++ [h0]).
  assert (KN : kept <> []) by (unfold kept; destruct new; discriminate). assert (KL : last kept h0 = h0) by (unfold kept; apply last_last). clearbody kept. intros E.
  apply (f_equal (@rev p2)) in E. rewrite rev_involutive in E. cbn [rev app] in E. destruct (trim_ok h0 kept KN KL) as (gone & G & _ & _). rewrite E in G.
  assert (H0 : a = h0). { rewrite G in KL. replace (gone ++ [b; a]) with ((gone ++ [b]) ++ [a]) in KL by (rewrite <- app_assoc; reflexivity). rewrite last_last in KL. exact KL. }
  pose proof (trim_stop h0 kept b a [] E) as D. rewrite <- H0 in D. intros Z. rewrite Z, (proj2 (dst_zero b b) eq_refl) in D. lra.
Qed.
Lemma hull_boxes w u0 u1 v0 v1 vs pts : (forall p, In p pts -> in_hull2 vs p) -> boxes w u0 u1 v0 v1 vs -> boxes w u0 u1 v0 v1 pts.
Proof.
  intros H B p P. apply (H p P (fun x => u0 <= dt (left90 w) x <= u1 /\ v0 <= dt w x <= v1)); [|exact B]. intros a b t T [A1 A2] [B1 B2].
  assert (E : forall z, dt z (pl a (sc t (mi b a))) = (1 - t) * dt z a + t * dt z b) by (intros; unfold pl, sc; m2; ring). rewrite !E. nra.
Qed.
(** What the function owes: orthonormal side directions, an enclosing rectangle whose four sides touch points, its centre and area, and no smaller rectangle in any direction. *)
Definition smallest_rect (r : rect2 R) (pts : list p2) : Prop :=
  dt (ru r) (ru r) = 1 /\ dt (rv r) (rv r) = 1 /\ dt (ru r) (rv r) = 0 /\
  (forall p, In p pts -> rminU r <= dt (ru r) p <= rmaxU r /\ rminV r <= dt (rv r) p <= rmaxV r) /\
  ((exists p, In p pts /\ dt (ru r) p = rminU r) /\ (exists p, In p pts /\ dt (ru r) p = rmaxU r) /\ (exists p, In p pts /\ dt (rv r) p = rminV r) /\ exists p, In p pts /\ dt (rv r) p = rmaxV r) /\
  rarea r = (rmaxU r - rminU r) * (rmaxV r - rminV r) /\ dt (ru r) (rcenter r) = (rminU r + rmaxU r) / 2 /\ dt (rv r) (rcenter r) = (rminV r + rmaxV r) / 2 /\
  forall w, dt w w = 1 -> least_at (rarea r) w pts.
Lemma run_hull (pts p : list p2) fuel : calok p -> (4 * length p < fuel)%nat -> (forall v, In v p -> In v pts) -> (forall q, In q pts -> in_hull2 p q) ->
  exists r, (match calLoop fuel p (V2 n0 (nneg n1)) (calStart p) None with None => None | Some r => Some (calFinish r) end) = Some r /\ smallest_rect r pts.
Proof.
  intros OK F I H. destruct (start_ok p OK) as [V S]. destruct (run_ok p OK fuel (calStart p) F V S) as (r & E & (U & B & A & N & T) & L).
  change (V2 n0 (nneg n1)) with (V2 0 (-(1))). replace (V2 0 (-(1))) with (V2 0 (-1)) by reflexivity. rewrite E. eexists. split; [reflexivity|].
  pose proof (hull_boxes _ _ _ _ _ p pts H B) as B'. unfold smallest_rect, calFinish. cbn [ru rv rcenter rminU rmaxU rminV rmaxV rarea]. rsimpl. change (V2 (- y2 (rv r)) (x2 (rv r))) with (left90 (rv r)).
  assert (U2 : dt (left90 (rv r)) (left90 (rv r)) = 1) by (unfold unit2 in U; rewrite <- U; m2; ring). assert (O : dt (left90 (rv r)) (rv r) = 0) by (m2; ring).
  split; [exact U2|]. split; [exact U|]. split; [exact O|]. split; [exact B'|]. split.
  { destruct T as (T1 & T2 & T3 & T4). repeat split; [destruct T1 as (q & Q1 & Q2)|destruct T2 as (q & Q1 & Q2)|destruct T3 as (q & Q1 & Q2)|destruct T4 as (q & Q1 & Q2)]; exists q; auto. }
  split; [exact A|].
  set (u := left90 (rv r)) in *. set (v := rv r) in *. set (a := rminU r + rmaxU r). set (b := rminV r + rmaxV r).
  assert (C : forall z, dt z (smul2 (1 / 2) (add2 (muls2 u a) (muls2 v b))) = (dt z u * a + dt z v * b) / 2) by (intros; unfold smul2, add2, muls2; rsimpl; unfold dt; cbn [x2 y2]; field).
  split; [etransitivity; [apply C|]; rewrite U2, O; field|]. split; [etransitivity; [apply C|]; unfold unit2 in U; rewrite U; replace (dt v u) with (dt u v) by (unfold dt; ring); rewrite O; field|].
  intros w W u0 u1 v0 v1 BX. apply (L w W). intros q Q. apply BX, I, Q.
Qed.
Theorem C107_smallest (pts : list p2) (fuel : nat) : pts <> [] -> (forall a b, In a pts -> In b pts -> a <> b -> 1 / 1000 < dst a b) -> (4 * length pts < fuel)%nat ->
  exists r, MinAreaRectInPlace fuel pts = Some r /\ smallest_rect r pts.
Proof.
  intros N A F. destruct (C83_hull pts N) as (H1 & H2 & _). destruct (C83_exact pts N A) as [H3 H4]. unfold MinAreaRectInPlace.
  assert (R : ConvexHullInPlace pts = finish (hullBoth (lexSort pts))) by apply inplace_R. set (h := ConvexHullInPlace pts) in *. clearbody h.
  assert (Len : NoDup h -> (length h <= length pts)%nat) by (intros ND; apply NoDup_incl_length; [exact ND|exact H2]).
  destruct h as [|a h]; [contradiction|]. destruct h as [|b h].
  - eexists. split; [reflexivity|]. assert (E : forall q, In q pts -> q = a).
    { intros q Q. apply (H3 q Q (fun x => x = a)); [|intros v [<-|[]]; reflexivity]. intros x y t _ -> ->. apply v2_ext; unfold pl, sc, mi; cbn; ring. }
    assert (IA : In a pts) by (apply H2; now left). unfold smallest_rect. cbn [ru rv rcenter rminU rmaxU rminV rmaxV rarea]. rsimpl. unfold dt. cbn [x2 y2].
    split; [ring|]. split; [ring|]. split; [ring|]. split; [intros q Q; rewrite (E q Q); lra|]. split; [repeat split; exists a; (split; [exact IA|ring])|]. split; [ring|]. split; [field|]. split; [field|].
    intros w _ u0 u1 v0 v1 B. destruct (B a IA) as [X Y]. apply Rmult_le_pos; lra.
  - destruct h as [|c h].
    + assert (NE : a <> b) by (apply (finish_two (hullBoth (lexSort pts))); now symmetry). apply run_hull; [apply two_calok; apply A; [apply H2; now left|apply H2; right; now left|exact NE]| |exact H2|exact H3].
      assert (L : (length [a; b] <= length pts)%nat) by (apply Len; constructor; [intros [Z|[]]; now apply NE|constructor; [intros []|constructor]]). cbn [length] in L |- *. lia.
    + assert (NC : ~ collinear pts). { intros C. pose proof (C83_line pts C) as L. rewrite inplace_R, <- R in L. cbn in L. lia. }
      destruct (H4 NC) as (CC & L3 & _). apply run_hull; [apply ccw_calok; [exact CC|exact L3|]| |exact H2|exact H3].
      * intros x y X Y. apply A; now apply H2.
      * pose proof (Len (proj1 CC)) as L. refine (Nat.le_lt_trans _ _ _ _ F). apply Nat.mul_le_mono_l. exact L.
Qed.
Print Assumptions C107_smallest.
(** A square given with its corners on the axes: rotated by 45 degrees, the smallest rectangle has area 2, not 4. *)
Example C107_smallest_witness : let pts := [V2 1 0; V2 0 1; V2 (-1) 0; V2 0 (-1)] in
  (exists r, MinAreaRectInPlace 20 pts = Some r /\ smallest_rect r pts /\ rarea r <= 2) /\ boxes (V2 1 0) (-1) 1 (-1) 1 pts.
Proof.
  cbv zeta. set (pts := [V2 1 0; V2 0 1; V2 (-1) 0; V2 0 (-1)]). split.
  - destruct (C107_smallest pts 20) as (r & E & S).
    + discriminate.
    + assert (D : forall a b : p2, 1 < dt (mi a b) (mi a b) -> 1/1000 < dst a b). { intros a b H. unfold dst, nrm. replace (1/1000) with (sqrt (1/1000 * (1/1000))) by (apply sqrt_square; lra). apply sqrt_lt_1_alt. lra. }
      intros a b I J NE. apply D. unfold pts in I, J. cbn [In] in I, J. repeat (destruct I as [I|I]; [|]); try contradiction; repeat (destruct J as [J|J]; [|]); try contradiction; subst; try (exfalso; apply NE; reflexivity); unfold dt, mi; cbn [x2 y2]; lra.
    + cbn. lia.
    + exists r. split; [exact E|]. split; [exact S|]. destruct S as (_ & _ & _ & _ & _ & _ & _ & _ & L). set (h := sqrt (1/2)). assert (H : h * h = 1/2) by (apply sqrt_sqrt; lra).
      assert (H0 : 0 <= h) by apply sqrt_pos. specialize (L (V2 h h)). replace 2 with ((h - - h) * (h - - h)) by lra. apply L; [unfold dt; cbn; lra|].
      intros q Q. unfold pts in Q. cbn [In] in Q. repeat (destruct Q as [Q|Q]; [|]); try contradiction; subst q; unfold left90, dt; cbn [x2 y2]; lra.
  - intros q Q. unfold pts in Q. cbn [In] in Q. repeat (destruct Q as [Q|Q]; [|]); try contradiction; subst q; unfold left90, dt; cbn [x2 y2]; lra.
Qed.
(** Points closer than 1e-3 are merged before the search, so the returned rectangle does not always enclose the input. *)
Theorem C107_close_points_refuted : exists (pts : list p2) r, (forall fuel, MinAreaRectInPlace fuel pts = Some r) /\ rminU r = rmaxU r /\ rminV r = rmaxV r /\ exists p, In p pts /\ rmaxU r < dt (ru r) p.
Proof.
  set (a := V2 0 0). set (b := V2 (1/2000) 0). exists [a; b], (Rect2 a (V2 1 0) (V2 0 1) 0 0 0 0 0). split; [|split; [reflexivity|split; [reflexivity|]]].
  - intros fuel. unfold MinAreaRectInPlace. assert (H : ConvexHullInPlace [a; b] = [a]).
    { unfold ConvexHullInPlace, lexSort. cbn [fold_right lexInsert].
      assert (E1 : LexSortPred b a = false) by (unfold LexSortPred, a, b; cbn [x2 y2]; rsimpl; rewrite (proj2 (Rltb_false _ _)) by lra; destruct (Reqb_spec (1/2000) 0); [lra|reflexivity]).
      rewrite E1. assert (E2 : nltb (nlit 1%Z 1000000%positive) (DistSq2D a b) = false). { unfold DistSq2D, a, b. cbn [x2 y2]. rsimpl. apply Rltb_false. lra. }
      rewrite E2. reflexivity. }
    rewrite H. reflexivity.
  - exists b. split; [right; now left|]. unfold dt, b. cbn. lra.
Qed.
Print Assumptions C107_close_points_refuted.
