(** C83 continued: the theorems about ConvexHullInPlace, ConvexHull and ConvexHullContains. *)
From Coq Require Import Reals Psatz List Bool Permutation Sorting.Sorted.
From Verif Require Import Num NumR ScalarModel ScalarProofs Vec2Model Vec2Spec Vec2Props HullModel HullSpec HullProofs HullProofs2 HullProps.
Import ListNotations.
Open Scope R_scope.
Ltac Zify.zify_post_hook ::= idtac.

Lemma dst_pos a b : 0 <= dst a b. Proof. apply nrm_pos. Qed.
Lemma DistSq2D_R (a b : p2) : DistSq2D a b = dst a b * dst a b.
Proof. unfold dst. rewrite nrm_sq. unfold DistSq2D, dt, mi. cbn [x2 y2]. rsimpl. ring. Qed.
Lemma dst_sym a b : dst a b = dst b a. Proof. apply (C70_length o2 a b o2). Qed.
Lemma dst_zero a b : dst a b = 0 <-> a = b. Proof. apply (C70_length o2 a b o2). Qed.
Lemma dst_triangle a b c : dst a c <= dst a b + dst b c. Proof. apply (C70_length o2 a b c). Qed.
Lemma far_R (a b : p2) : nltb (nlit 1%Z 1000000%positive) (DistSq2D a b) = true <-> 1 / 1000 < dst a b.
Proof. rewrite DistSq2D_R. rsimpl. rewrite Rltb_true. pose proof (dst_pos a b). split; intros; nra. Qed.
Lemma near_R (a b : p2) : nltb (nlit 1%Z 1000000%positive) (DistSq2D a b) = false <-> dst a b <= 1 / 1000.
Proof. rewrite DistSq2D_R. rsimpl. rewrite Rltb_false. pose proof (dst_pos a b). split; intros; nra. Qed.
Lemma close_R (a b : p2) : nltb (DistSq2D a b) (nlit 1%Z 1000000%positive) = true <-> dst a b < 1 / 1000.
Proof. rewrite DistSq2D_R. rsimpl. rewrite Rltb_true. pose proof (dst_pos a b). split; intros; nra. Qed.
Lemma nrm_sym_o w : nrm (mi o2 w) = nrm w.
Proof. unfold nrm. f_equal. unfold dt, mi, o2. cbn. ring. Qed.
(** The common shape of all cases. *)
Definition finish (h : list p2) : list p2 := match h with [] => [] | h0 :: rest => rev (hullTrim (hullDedupe [h0] rest) h0) end.
Lemma both_one (p : p2) : hullBoth [p] = [p]. Proof. reflexivity. Qed.
Lemma both_two (p q : p2) : hullBoth [p; q] = [p; q]. Proof. reflexivity. Qed.
Lemma inplace_R (pts : list p2) : ConvexHullInPlace pts = finish (hullBoth (lexSort pts)).
Proof.
  destruct pts as [|p [|q r]]; [reflexivity|reflexivity|]. unfold ConvexHullInPlace. set (s := lexSort (p :: q :: r)).
  assert (L : length s = S (S (length r))) by (symmetry; exact (Permutation_length (proj2 (lexSort_ok (p :: q :: r))))). clearbody s.
  destruct s as [|a [|b [|c s]]]; try discriminate; [|reflexivity]. rewrite both_two. unfold finish. cbn [hullDedupe].
  assert (E : DistSq2D a b = DistSq2D b a) by (rewrite !DistSq2D_R, (dst_sym a b); reflexivity). rewrite E.
  destruct (nltb (nlit 1%Z 1000000%positive) (DistSq2D b a)) eqn:F; [|reflexivity]. cbn [hullTrim]. apply far_R in F. destruct (nltb (DistSq2D b a) (nlit 1%Z 1000000%positive)) eqn:F'; [apply close_R in F'; lra|reflexivity].
Qed.
Lemma dedupe_ok (hull : list p2) : forall kept k r, kept = k :: r -> exists new, hullDedupe kept hull = new ++ kept /\ (forall x, In x new -> In x hull) /\ forall x, In x hull -> exists y, In y (new ++ kept) /\ dst x y <= 1 / 1000.
Proof.
  induction hull as [|q hull IH]; intros kept k r E.
  - exists []. split; [reflexivity|]. split; [intros x []|intros x []].
  - subst kept. cbn [hullDedupe]. destruct (nltb (nlit 1%Z 1000000%positive) (DistSq2D q k)) eqn:F.
    + destruct (IH (q :: k :: r) q (k :: r) eq_refl) as (new & E & A & B). exists (new ++ [q]). rewrite <- app_assoc. split; [exact E|]. split.
      * intros x X. apply in_app_or in X. destruct X as [X|[ <- |[]]]; [right; now apply A|now left].
      * intros x [ <- |X]; [exists q; split; [apply in_or_app; right; now left|rewrite (proj2 (dst_zero q q) eq_refl); lra]|now apply B].
    + apply near_R in F. destruct (IH (k :: r) k r eq_refl) as (new & E & A & B). exists new. split; [exact E|]. split; [intros x X; right; now apply A|]. intros x [ <- |X]; [exists k; split; [apply in_or_app; right; now left|exact F]|now apply B].
Qed.
Lemma trim_ok (first : p2) (kept : list p2) : kept <> [] -> last kept first = first -> exists gone, kept = gone ++ hullTrim kept first /\ In first (hullTrim kept first) /\ forall x, In x gone -> dst x first <= 1 / 1000.
Proof.
  induction kept as [|k kept IH]; [contradiction|]. intros _ L. destruct kept as [|k' kept].
  - cbn in L. subst k. exists []. split; [reflexivity|]. split; [now left|intros x []].
  - change (hullTrim (k :: k' :: kept) first) with (if nltb (DistSq2D k first) (nlit 1%Z 1000000%positive) then hullTrim (k' :: kept) first else k :: k' :: kept).
    destruct (nltb (DistSq2D k first) (nlit 1%Z 1000000%positive)) eqn:F.
    + destruct IH as (gone & E & I & D); [discriminate|exact L|]. exists (k :: gone). split; [cbn [app]; now rewrite <- E|]. split; [exact I|]. intros x [ <- |X]; [apply close_R in F; lra|now apply D].
    + exists []. split; [reflexivity|]. split; [|intros x []]. rewrite <- L. clear. revert k. generalize (k' :: kept). intros l k. induction l as [|y l IH] in k |- *; [now left|]. right. apply IH.
Qed.
Lemma finish_ok (h : list p2) : h <> [] -> finish h <> [] /\ (forall x, In x (finish h) -> In x h) /\ forall x, In x h -> exists y z, In y h /\ In z (finish h) /\ dst x y <= 1 / 1000 /\ dst y z <= 1 / 1000.
Proof.
  destruct h as [|h0 rest]; [contradiction|]. intros _. unfold finish. destruct (dedupe_ok rest [h0] h0 [] eq_refl) as (new & -> & A & B).
  destruct (trim_ok h0 (new ++ [h0])) as (gone & E & I & D); [destruct new; discriminate|apply last_last|]. set (k := hullTrim (new ++ [h0]) h0) in *.
  assert (K : forall x, In x (new ++ [h0]) -> exists y, In y k /\ dst x y <= 1 / 1000).
  { intros x X. rewrite E in X. apply in_app_or in X. destruct X as [X|X]; [exists h0; split; [exact I|now apply D]|exists x; split; [exact X|rewrite (proj2 (dst_zero x x) eq_refl); lra]]. }
  split; [intros Z; apply (f_equal (@rev p2)) in Z; rewrite rev_involutive in Z; rewrite Z in I; exact I|]. split.
  - intros x X. apply in_rev in X. assert (X' : In x (new ++ [h0])) by (rewrite E; apply in_or_app; now right). apply in_app_or in X'. destruct X' as [X'|[ <- |[]]]; [right; now apply A|now left].
  - intros x [ <- |X].
    + exists h0, h0. split; [now left|]. split; [now apply -> in_rev|]. rewrite (proj2 (dst_zero h0 h0) eq_refl). lra.
    + destruct (B x X) as (y & Y & D1). destruct (K y Y) as (z & Z & D2). exists y, z. split; [|split; [now apply -> in_rev|tauto]]. apply in_app_or in Y. destruct Y as [Y|[ <- |[]]]; [right; now apply A|now left].
Qed.
Lemma finish_same (h : list p2) : NoDup h -> (forall a b, In a h -> In b h -> a <> b -> 1 / 1000 < dst a b) -> finish h = h.
Proof.
  destruct h as [|h0 rest]; [reflexivity|]. intros N F. unfold finish.
  assert (DD : forall rest k r, NoDup (k :: r ++ rest) -> (forall a b, In a (k :: r ++ rest) -> In b (k :: r ++ rest) -> a <> b -> 1 / 1000 < dst a b) -> hullDedupe (k :: r) rest = rev rest ++ k :: r).
  { clear. induction rest as [|q rest IH]; intros k r N F; [reflexivity|]. cbn [hullDedupe]. rewrite (proj2 (far_R q k)).
    - rewrite IH; [cbn [rev]; rewrite <- app_assoc; reflexivity| |].
      + apply (Permutation_NoDup (l := k :: r ++ q :: rest)); [|exact N]. change (k :: r ++ q :: rest) with ((k :: r) ++ q :: rest). rewrite <- Permutation_middle. reflexivity.
      + intros a b A B. apply F; (eapply Permutation_in; [|eassumption]); change (k :: r ++ q :: rest) with ((k :: r) ++ q :: rest); rewrite <- Permutation_middle; reflexivity.
    - apply F; [right; apply in_or_app; right; now left|now left|]. intros ->. inversion N as [|? ? N1 _]; subst. apply N1. apply in_or_app. right. now left. }
  rewrite (DD rest h0 [] N F). destruct (rev rest ++ [h0]) as [|k [|k' l]] eqn:E.
  - destruct (rev rest); discriminate.
  - cbn [hullTrim]. change [k] with ([] ++ [k]) in E. apply app_inj_tail in E. destruct E as [E <-]. apply (f_equal (@rev p2)) in E. rewrite rev_involutive in E. cbn in E. now subst rest.
  - change (hullTrim (k :: k' :: l) h0) with (if nltb (DistSq2D k h0) (nlit 1%Z 1000000%positive) then hullTrim (k' :: l) h0 else k :: k' :: l).
    assert (K : In k rest /\ k <> h0).
    { destruct (rev rest) as [|z rr] eqn:RR; [discriminate|]. injection E as -> _. assert (Z : In k rest) by (apply in_rev; rewrite RR; now left). split; [exact Z|]. intros ->. inversion N; subst. contradiction. }
    destruct (nltb (DistSq2D k h0) (nlit 1%Z 1000000%positive)) eqn:C.
    + apply close_R in C. destruct K as [K1 K2]. specialize (F k h0 (or_intror K1) (or_introl eq_refl) K2). lra.
    + rewrite <- E, rev_app_distr, rev_involutive. reflexivity.
Qed.
(** ** The hull *)
Lemma both_main (s : list p2) : lexsorted s -> s <> [] ->
  hullBoth s <> [] /\ (forall x, In x (hullBoth s) -> In x s) /\ (forall p, In p s -> in_hull2 (hullBoth s) p) /\
  (~ collinear s -> NoDup (hullBoth s) /\ (3 <= length (hullBoth s))%nat /\ (forall a b c, In (a, b) (polygon_edges (hullBoth s)) -> In (b, c) (polygon_edges (hullBoth s)) -> 0 < turn a b c) /\
    forall a b p, In (a, b) (polygon_edges (hullBoth s)) -> In p s -> 0 <= turn a b p).
Proof.
  intros L N. destruct s as [|p0 t]; [contradiction|]. destruct t as [|p1 t].
  - rewrite both_one. split; [discriminate|]. split; [trivial|]. split; [intros p P A _ H; now apply H|]. intros NC. exfalso. apply NC. intros a b c [ <- |[]] [ <- |[]] _. apply turn_stay.
  - destruct (@exists_last _ (p1 :: t)) as (mid & pn & E); [discriminate|]. rewrite E in *. clear E p1 t N. destruct (sides p0 mid pn L) as (lo & up & -> & G1 & G2 & I1 & I2 & O).
    set (S := fun p => In p (p0 :: mid ++ [pn])) in *. assert (S0 : S p0) by now left. assert (Sn : S pn) by (right; apply in_or_app; right; now left).
    split; [discriminate|]. split.
    + intros x X. change (S x). apply (both_in p0 pn lo up) in X. destruct X as [X|X]; [now apply (lower_in p0 pn lo up S I1 S0 Sn)|now apply (upper_in p0 pn lo up S I2 S0 Sn)].
    + split; [intros p P; now apply (both_hull p0 pn lo up S G1 G2 I1 I2 O S0 Sn)|]. intros NC.
      assert (NC' : exists a b c, S a /\ S b /\ S c /\ turn a b c <> 0).
      { destruct (Classical_Prop.classic (exists a b c, S a /\ S b /\ S c /\ turn a b c <> 0)) as [H|H]; [exact H|]. exfalso. apply NC. intros a b c A B C. destruct (Req_dec (turn a b c) 0) as [Z|Z]; [exact Z|]. exfalso. apply H. now exists a, b, c. }
      split; [now apply (both_nodup p0 pn lo up S)|]. split; [now apply (both_three p0 pn lo up S)|]. split; [now apply (both_corner p0 pn lo up S)|]. intros a b p AB P. now apply (both_left p0 pn lo up S G1 G2 a b p).
Qed.
Lemma hull_near (vs ws : list p2) d p : (forall v, In v vs -> exists w, In w ws /\ dst v w <= d) -> in_hull2 vs p -> exists q, in_hull2 ws q /\ dst p q <= d.
Proof.
  intros V H. apply H.
  - intros a b t T (x & X & DX) (y & Y & DY). exists (pl x (sc t (mi y x))). split; [intros A CV HA; apply CV; [exact T|now apply X|now apply Y]|].
    unfold dst. replace (mi (pl a (sc t (mi b a))) (pl x (sc t (mi y x)))) with (mi (sc (1 - t) (mi a x)) (sc (- t) (mi b y))) by (apply v2_ext; unfold mi, pl, sc; cbn; ring).
    set (u := sc (1 - t) (mi a x)). set (w := sc (- t) (mi b y)). assert (TR : nrm (mi u w) <= nrm u + nrm w).
    { pose proof (dst_triangle u o2 w) as TR. unfold dst in TR. replace (mi u o2) with u in TR by (apply v2_ext; unfold mi, o2; cbn; ring). rewrite (nrm_sym_o w) in TR. exact TR. }
    unfold u, w in *. rewrite !nrm_sc in TR. rewrite Rabs_Ropp, !Rabs_pos_eq in TR by lra. fold (dst a x) (dst b y) in TR. nra.
  - intros v X. destruct (V v X) as (w & W & D). exists w. split; [|exact D]. intros A _ HA. now apply HA.
Qed.
(** ** Polygons *)
Lemma succ_edge (vs : list p2) v : In v vs -> exists w, In (v, w) (polygon_edges vs) /\ In w vs.
Proof.
  destruct vs as [|h t]; [intros []|]. intros V. apply in_split in V. destruct V as (f & r & E). destruct r as [|w r].
  - exists h. split; [|now left]. apply closed_edges, path_adj. exists f, []. rewrite app_comm_cons, E, <- app_assoc. reflexivity.
  - exists w. split; [|rewrite E; apply in_or_app; right; right; now left]. apply closed_edges, path_adj. exists f, (r ++ [h]). rewrite app_comm_cons, E, <- app_assoc. reflexivity.
Qed.
Lemma pred_edge (vs : list p2) v : In v vs -> exists u, In (u, v) (polygon_edges vs) /\ In u vs.
Proof.
  destruct vs as [|h t]; [intros []|]. intros [ <- |V].
  - destruct (@exists_last _ (h :: t)) as (f & u & E); [discriminate|]. exists u. split; [|rewrite E; apply in_or_app; right; now left]. apply closed_edges, path_adj. exists f, []. rewrite app_comm_cons, E, <- app_assoc. reflexivity.
  - apply in_split in V. destruct V as (f & r & ->). destruct (@exists_last _ (h :: f)) as (f' & u & E); [discriminate|]. exists u. split.
    + apply closed_edges, path_adj. exists f', (r ++ [h]). rewrite app_comm_cons, app_comm_cons, E, <- !app_assoc. reflexivity.
    + rewrite app_comm_cons, E, <- app_assoc. apply in_or_app. right. now left.
Qed.
Lemma edge_in (vs : list p2) a b : In (a, b) (polygon_edges vs) -> In a vs /\ In b vs.
Proof.
  destruct vs as [|h t]; [intros []|]. intros E. apply closed_edges, path_adj in E. destruct E as (f & r & E).
  assert (X : forall x, In x (h :: t ++ [h]) -> In x (h :: t)) by (intros x [ <- |X]; [now left|]; apply in_app_or in X; destruct X as [X|[ <- |[]]]; [now right|now left]).
  split; apply X; rewrite E; apply in_or_app; right; cbn; tauto.
Qed.
Lemma on_line (a b v : p2) : a <> b -> turn a b v = 0 -> exists s, v = pl b (sc s (mi b a)).
Proof.
  intros N T. assert (P : 0 < dt (mi b a) (mi b a)).
  { destruct (Rle_lt_or_eq_dec 0 (dt (mi b a) (mi b a))) as [P|P]; [unfold dt; nra|exact P|]. exfalso. apply N. unfold dt, mi in P. cbn in P. destruct (Rplus_sqr_eq_0 (x2 b - x2 a) (y2 b - y2 a)) as [E1 E2]; [unfold Rsqr; lra|]. apply v2_ext; lra. }
  exists (dt (mi v b) (mi b a) / dt (mi b a) (mi b a)). set (D := dt (mi b a) (mi b a)) in *. assert (T' : x2 (mi b a) * y2 (mi v b) - y2 (mi b a) * x2 (mi v b) = 0) by (rewrite <- T; unfold turn, area2, mi; cbn; ring).
  assert (ED : D = x2 (mi b a) * x2 (mi b a) + y2 (mi b a) * y2 (mi b a)) by reflexivity.
  apply v2_ext; apply (Rmult_eq_reg_r D); try lra; unfold pl, sc; cbn [x2 y2].
  - replace ((x2 b + dt (mi v b) (mi b a) / D * x2 (mi b a)) * D) with (x2 b * D + dt (mi v b) (mi b a) * x2 (mi b a)) by (field; lra). replace (x2 v) with (x2 b + x2 (mi v b)) by (unfold mi; cbn; ring). rewrite ED. unfold dt.
    apply Rminus_diag_uniq. transitivity (- y2 (mi b a) * (x2 (mi b a) * y2 (mi v b) - y2 (mi b a) * x2 (mi v b))); [ring|rewrite T'; ring].
  - replace ((y2 b + dt (mi v b) (mi b a) / D * y2 (mi b a)) * D) with (y2 b * D + dt (mi v b) (mi b a) * y2 (mi b a)) by (field; lra). replace (y2 v) with (y2 b + y2 (mi v b)) by (unfold mi; cbn; ring). rewrite ED. unfold dt.
    apply Rminus_diag_uniq. transitivity (x2 (mi b a) * (x2 (mi b a) * y2 (mi v b) - y2 (mi b a) * x2 (mi v b))); [ring|rewrite T'; ring].
Qed.
Lemma strict_edge (vs : list p2) a b v : ccw_polygon vs -> In (a, b) (polygon_edges vs) -> In v vs -> v <> a -> v <> b -> 0 < turn a b v.
Proof.
  intros (_ & C & L) AB V NA NB. destruct (edge_in _ _ _ AB) as [A B]. pose proof (L a b v AB V) as P. destruct (Rle_lt_or_eq_dec _ _ P) as [Q|Q]; [exact Q|]. exfalso. symmetry in Q.
  destruct (succ_edge vs b B) as (c & BC & _). destruct (pred_edge vs a A) as (z & ZA & _). destruct (succ_edge vs v V) as (w & VW & _). destruct (pred_edge vs v V) as (u & UV & _).
  pose proof (C a b c AB BC) as T1. pose proof (C z a b ZA AB) as T2. pose proof (C u v w UV VW) as T3. pose proof (L b c v BC V) as T4. pose proof (L z a v ZA V) as T5.
  pose proof (L u v a UV A) as T6. pose proof (L u v b UV B) as T7. pose proof (L v w a VW A) as T8. pose proof (L v w b VW B) as T9. clear C L P AB BC ZA UV VW A B V.
  assert (N : a <> b) by (intros ->; rewrite turn_stay in T1; lra). destruct (on_line a b v N Q) as (s & E).
  assert (E4 : turn b c v = - s * turn a b c) by (rewrite E; unfold turn, area2, pl, mi, sc; cbn; ring).
  assert (E5 : turn z a v = (1 + s) * turn z a b) by (rewrite E; unfold turn, area2, pl, mi, sc; cbn; ring).
  assert (S1 : s <= 0) by nra. assert (S2 : -1 <= s) by nra.
  assert (S3 : s <> 0) by (intros ->; apply NB; rewrite E; apply v2_ext; unfold pl, mi, sc; cbn; ring).
  assert (S4 : s <> -1) by (intros ->; apply NA; rewrite E; apply v2_ext; unfold pl, mi, sc; cbn; ring).
  set (X := area2 (mi v u) (mi b a)). set (Y := area2 (mi w v) (mi b a)).
  assert (E6 : turn u v a = - (1 + s) * X) by (unfold X; rewrite E; unfold turn, area2, pl, mi, sc; cbn; ring).
  assert (E7 : turn u v b = - s * X) by (unfold X; rewrite E; unfold turn, area2, pl, mi, sc; cbn; ring).
  assert (E8 : turn v w a = - (1 + s) * Y) by (unfold Y; rewrite E; unfold turn, area2, pl, mi, sc; cbn; ring).
  assert (E9 : turn v w b = - s * Y) by (unfold Y; rewrite E; unfold turn, area2, pl, mi, sc; cbn; ring).
  assert (X0 : X = 0) by nra. assert (Y0 : Y = 0) by nra.
  assert (Z : turn u v w = area2 (mi v u) (mi w v)) by (unfold turn, area2, mi; cbn; ring). rewrite Z in T3.
  assert (N' : mi b a <> o2) by (intros H; apply N; apply (f_equal x2) in H as H1; apply (f_equal y2) in H as H2; unfold mi, o2 in *; cbn in *; apply v2_ext; lra).
  unfold X in X0. unfold Y in Y0. clear - X0 Y0 N' T3. destruct (mi v u) as [ux uy], (mi w v) as [wx wy], (mi b a) as [dx dy]. unfold area2, o2 in *. cbn in *.
  assert (dx <> 0 \/ dy <> 0) as [D|D] by (destruct (Req_dec dx 0) as [->|]; [right; intros ->; apply N'; reflexivity|now left]).
  - assert (Z : dx * (ux * wy - uy * wx) = 0) by (transitivity (- ux * (wx * dy - wy * dx) + wx * (ux * dy - uy * dx)); [ring|rewrite X0, Y0; ring]). apply Rmult_integral in Z. destruct Z; [contradiction|lra].
  - assert (Z : dy * (ux * wy - uy * wx) = 0) by (transitivity (- uy * (wx * dy - wy * dx) + wy * (ux * dy - uy * dx)); [ring|rewrite X0, Y0; ring]). apply Rmult_integral in Z. destruct Z; [contradiction|lra].
Qed.
Lemma fan (v0 p : p2) : forall rest v, rest <> [] -> 0 <= turn v0 v p -> turn v0 (last rest v) p <= 0 -> exists a b, In (a, b) (path v rest) /\ 0 <= turn v0 a p /\ turn v0 b p <= 0.
Proof.
  induction rest as [|b rest IH]; intros v N P Q; [contradiction|]. destruct rest as [|b' rest].
  - exists v, b. split; [now left|]. split; [exact P|exact Q].
  - destruct (Rle_or_lt (turn v0 b p) 0) as [S|S]; [exists v, b; split; [now left|]; split; assumption|]. destruct (IH b) as (x & y & I & X & Y); [discriminate|lra| |].
    + change (last (b :: b' :: rest) v) with (last (b' :: rest) v) in Q. rewrite (last_any (b' :: rest) b v); [exact Q|discriminate].
    + exists x, y. split; [now right|split; assumption].
Qed.
Lemma in_triangle2 (A : p2 -> Prop) (u a b p : p2) : convex2 A -> A u -> A a -> A b -> 0 < turn u a b -> 0 <= turn u a p -> turn u b p <= 0 -> 0 <= turn a b p -> A p.
Proof.
  intros CV AU AA AB T P Q S. set (t := turn u a b) in *. assert (SUM : turn a b p + turn u a p - turn u b p = t) by (unfold t; tunf; ring).
  destruct (Rle_lt_or_eq_dec 0 (turn u a p - turn u b p)) as [W|W]; [lra| |].
  - set (w := turn u a p - turn u b p) in *. assert (UN : forall x y, 0 < y -> 0 <= x <= y -> 0 <= x / y <= 1).
    { intros x y Y X. split; apply (Rmult_le_reg_r y); try lra; unfold Rdiv; rewrite Rmult_assoc, Rinv_l by lra; lra. }
    assert (W1 : 0 <= turn u a p <= w) by (unfold w; lra). assert (W2 : 0 <= w <= t) by (unfold w in *; lra).
    pose proof (CV a b _ (UN _ _ W W1) AA AB) as Q1. pose proof (CV u _ _ (UN _ _ T W2) AU Q1) as Q2.
    match type of Q2 with A ?q => replace p with q; [exact Q2|] end.
    apply v2_ext; apply (Rmult_eq_reg_r t); try lra; unfold pl, sc, mi; cbn [x2 y2].
    + transitivity (x2 u * t + w * (x2 a - x2 u) + turn u a p * (x2 b - x2 a)); [field; lra|]. unfold w, t. tunf. ring.
    + transitivity (y2 u * t + w * (y2 a - y2 u) + turn u a p * (y2 b - y2 a)); [field; lra|]. unfold w, t. tunf. ring.
  - assert (P0 : turn u a p = 0) by lra. assert (Q0 : turn u b p = 0) by lra. replace p with u; [exact AU|].
    assert (X : (x2 p - x2 u) * t = 0) by (transitivity ((turn u a p) * (x2 b - x2 u) - turn u b p * (x2 a - x2 u)); [unfold t; tunf; ring|rewrite P0, Q0; ring]).
    assert (Y : (y2 p - y2 u) * t = 0) by (transitivity ((turn u a p) * (y2 b - y2 u) - turn u b p * (y2 a - y2 u)); [unfold t; tunf; ring|rewrite P0, Q0; ring]).
    apply Rmult_integral in X, Y. apply v2_ext; lra.
Qed.
(** A ccw polygon is the intersection of the half planes left of its edges. *)
Theorem C83_halfplanes (vs : list p2) (p : p2) : ccw_polygon vs -> (3 <= length vs)%nat -> (in_hull2 vs p <-> forall a b, In (a, b) (polygon_edges vs) -> 0 <= turn a b p).
Proof.
  intros CC L. split.
  - intros H a b E. apply (H (fun q => 0 <= turn a b q)).
    + intros x y t T X Y. replace (turn a b (pl x (sc t (mi y x)))) with ((1 - t) * turn a b x + t * turn a b y) by (tunf; unfold pl, sc, mi; cbn; ring). nra.
    + intros v V. now apply CC.
  - intros H. destruct vs as [|v0 [|v1 rest]]; [cbn in L; lia|cbn in L; lia|]. assert (RN : rest <> []) by (intros ->; cbn in L; lia).
    assert (H' : forall a b, In (a, b) (path v0 ((v1 :: rest) ++ [v0])) -> 0 <= turn a b p) by (intros a b E; apply H, closed_edges, E).
    rewrite path_app in H'. cbn [path] in H'. destruct (fan v0 p rest v1 RN) as (a & b & E & P & Q).
    + apply H'. apply in_or_app. left. now left.
    + assert (LA : 0 <= turn (last (v1 :: rest) v0) v0 p) by (apply H'; apply in_or_app; right; now left).
      assert (EQ : last (v1 :: rest) v0 = last rest v1) by (destruct rest as [|r0 rest]; [contradiction|exact (last_any (r0 :: rest) v0 v1 ltac:(discriminate))]).
      rewrite EQ in LA. rewrite turn_flip. lra.
    + assert (E' : In (a, b) (polygon_edges (v0 :: v1 :: rest))) by (apply closed_edges; rewrite path_app; apply in_or_app; left; now right).
      intros A CV HA. apply path_adj in E as AJ. destruct AJ as (f & r & EQ). assert (IA : In a (v1 :: rest)) by (rewrite EQ; apply in_or_app; right; cbn; tauto). assert (IB : In b (v1 :: rest)) by (rewrite EQ; apply in_or_app; right; cbn; tauto).
      assert (NA : v0 <> a /\ v0 <> b). { destruct CC as [N _]. inversion N as [|? ? N1 _]; subst. split; intros ->; contradiction. }
      apply (in_triangle2 A v0 a b p CV); [apply HA; now left|apply HA; now right|apply HA; now right| |exact P|exact Q|now apply H].
      rewrite turn_cycle. apply (strict_edge (v0 :: v1 :: rest) a b v0 CC E'); [now left| |]; apply NA.
Qed.
Lemma col_perm (l l' : list p2) : (forall x, In x l -> In x l') -> collinear l' -> collinear l.
Proof. intros I C a b c A B D. apply C; now apply I. Qed.
Lemma sort_in (pts : list p2) x : In x (lexSort pts) <-> In x pts.
Proof. pose proof (proj2 (lexSort_ok pts)) as P. split; apply Permutation_in; [symmetry|]; exact P. Qed.
Lemma sort_ne (pts : list p2) : pts <> [] -> lexSort pts <> [].
Proof. intros N E. pose proof (proj2 (lexSort_ok pts)) as P. rewrite E in P. apply Permutation_sym, Permutation_nil in P. contradiction. Qed.
(** For every list of points: the result consists of input points, and every input point is within 2e-3 of its hull. *)
Theorem C83_hull (pts : list p2) : pts <> [] ->
  ConvexHullInPlace pts <> [] /\ (forall v, In v (ConvexHullInPlace pts) -> In v pts) /\ forall p, In p pts -> exists q, in_hull2 (ConvexHullInPlace pts) q /\ dst p q <= 1 / 500.
Proof.
  intros N. rewrite inplace_R. destruct (both_main (lexSort pts) (proj1 (lexSort_ok pts)) (sort_ne pts N)) as (B1 & B2 & B3 & _). destruct (finish_ok _ B1) as (F1 & F2 & F3).
  split; [exact F1|]. split; [intros v V; apply sort_in, B2, F2, V|]. intros p P. apply (hull_near (hullBoth (lexSort pts))); [|apply B3; now apply sort_in].
  intros v V. destruct (F3 v V) as (y & z & _ & Z & D1 & D2). exists z. split; [exact Z|]. pose proof (dst_triangle v y z). lra.
Qed.
(** When distinct input points are more than 1e-3 apart the hull is exact, and it is a strictly convex counter-clockwise polygon unless all points are on a line. *)
Theorem C83_exact (pts : list p2) : pts <> [] -> (forall a b, In a pts -> In b pts -> a <> b -> 1 / 1000 < dst a b) ->
  (forall p, In p pts -> in_hull2 (ConvexHullInPlace pts) p) /\
  (~ collinear pts -> ccw_polygon (ConvexHullInPlace pts) /\ (3 <= length (ConvexHullInPlace pts))%nat /\ forall a b p, In (a, b) (polygon_edges (ConvexHullInPlace pts)) -> In p pts -> 0 <= turn a b p).
Proof.
  intros N F. rewrite inplace_R. destruct (both_main (lexSort pts) (proj1 (lexSort_ok pts)) (sort_ne pts N)) as (B1 & B2 & B3 & B4). destruct (finish_ok _ B1) as (F1 & F2 & F3). split.
  - intros p P. intros A CV HA. apply (B3 p (proj2 (sort_in pts p) P) A CV). intros v V.
    destruct (F3 v V) as (y & z & Y & Z & D1 & D2). assert (SAME : forall a b, In a (hullBoth (lexSort pts)) -> In b (hullBoth (lexSort pts)) -> dst a b <= 1 / 1000 -> a = b).
    { intros a b IA IB D. apply Classical_Prop.NNPP. intros NE. specialize (F a b (proj1 (sort_in pts a) (B2 a IA)) (proj1 (sort_in pts b) (B2 b IB)) NE). lra. }
    rewrite (SAME v y V Y D1), (SAME y z Y (F2 z Z) D2). now apply HA.
  - intros NC. destruct B4 as (N1 & L & C & LF); [intros C; apply NC; apply (col_perm pts (lexSort pts)); [intros x; apply sort_in|exact C]|].
    rewrite finish_same; [|exact N1|intros a b IA IB; apply F; apply sort_in; now apply B2]. split; [|split; [exact L|]].
    + split; [exact N1|]. split; [exact C|]. intros a b v E V. apply LF; [exact E|now apply B2].
    + intros a b p E P. apply LF; [exact E|now apply sort_in].
Qed.
(** Points on a line give at most two vertices. *)
Lemma pop_flat (st : list p2) q : st <> [] -> (forall a b, In a st -> In b st -> turn a b q = 0) -> hullPop st q = [last st q].
Proof.
  induction st as [|a st IH]; [contradiction|]. intros _ F. destruct st as [|b st]; [reflexivity|]. change (hullPop (a :: b :: st) q) with (if nleb (PerpDot2D b a q) n0 then hullPop (b :: st) q else a :: b :: st).
  rewrite PerpDot2D_R, F by (cbn; tauto). assert (E : nleb 0 n0 = true) by (rsimpl; apply Rleb_true; lra). rewrite E. rewrite IH; [reflexivity|discriminate|]. intros x y X Y. apply F; now right.
Qed.
Lemma chain_flat (l : list p2) : forall p q, collinear (p :: l ++ [q]) -> hullChain p (l ++ [q]) = [q; p].
Proof.
  induction l as [|x l IH] using rev_ind; intros p q C; [reflexivity|]. rewrite chain_snoc, IH.
  - rewrite pop_flat; [reflexivity|discriminate|]. intros a b A B. apply C; [| |right; apply in_or_app; right; now left].
    + destruct A as [ <- |[ <- |[]]]; [right; rewrite <- app_assoc; apply in_or_app; right; now left|now left].
    + destruct B as [ <- |[ <- |[]]]; [right; rewrite <- app_assoc; apply in_or_app; right; now left|now left].
  - apply (col_perm _ (p :: (l ++ [x]) ++ [q])); [|exact C]. intros y [ <- |Y]; [now left|right; apply in_or_app; now left].
Qed.
Theorem C83_line (pts : list p2) : collinear pts -> (length (ConvexHullInPlace pts) <= 2)%nat.
Proof.
  intros C. rewrite inplace_R. assert (C' : collinear (lexSort pts)) by (apply (col_perm _ pts); [intros x; apply sort_in|exact C]). set (s := lexSort pts) in *. clearbody s. clear C.
  assert (L : (length (hullBoth s) <= 2)%nat).
  { destruct s as [|p0 t]; [cbn; lia|]. destruct t as [|p1 t] using rev_ind; [cbn; lia|]. clear IHt. unfold hullBoth. rewrite chain_flat by exact C'.
    rewrite app_comm_cons, rev_app_distr. cbn [rev app]. rewrite removelast_last.
    assert (U : hullPop (hullChain p1 (rev t)) p0 = [p1]).
    { destruct t as [|m t]; [reflexivity|]. cbn [rev]. rewrite chain_flat.
      - rewrite pop_flat; [reflexivity|discriminate|]. intros a b A B. apply C'; [| |now left]; (destruct A as [ <- |[ <- |[]]] || idtac); (destruct B as [ <- |[ <- |[]]] || idtac); right; try (now left); apply in_or_app; right; now left.
      - apply (col_perm _ (p0 :: (m :: t) ++ [p1])); [|exact C']. intros y [ <- |Y]; [right; apply in_or_app; right; now left|]. apply in_app_or in Y. right. apply in_or_app. left. destruct Y as [Y|[ <- |[]]]; [right; now apply in_rev|now left]. }
    rewrite U. cbn. lia. }
  set (h := hullBoth s) in *. clearbody h. clear C'. destruct h as [|h0 rest]; [cbn; lia|]. unfold finish. rewrite rev_length. destruct rest as [|h1 [|h2 rest]]; [cbn; lia| |cbn in L; lia].
  cbn [hullDedupe]. destruct (nltb (nlit 1%Z 1000000%positive) (DistSq2D h1 h0)); [|cbn; lia]. cbn [hullTrim]. destruct (nltb (DistSq2D h1 h0) (nlit 1%Z 1000000%positive)); cbn; lia.
Qed.
(** [ConvexHull] is the same computation on a copy. *)
Theorem C83_copy (pts : list p2) : ConvexHull pts = ConvexHullInPlace pts.
Proof. destruct pts; reflexivity. Qed.
Lemma loop_R (bad : R -> bool) p : forall vs prev, hullContainsLoop bad prev vs p = true <-> forall a b, In (a, b) (path prev vs) -> bad (turn a b p) = false.
Proof.
  induction vs as [|v vs IH]; intros prev; [split; [intros _ a b []|reflexivity]|]. cbn [hullContainsLoop path]. rewrite PerpDot2D_R. destruct (bad (turn prev v p)) eqn:B.
  - split; [discriminate|]. intros H. rewrite (H prev v (or_introl eq_refl)) in B. discriminate.
  - rewrite IH. split; [intros H a b [E|E]; [injection E as <- <-; exact B|now apply H]|intros H a b E; apply H; now right].
Qed.
Lemma last_rev (vs : list p2) l r d : rev vs = l :: r -> last vs d = l.
Proof. intros E. rewrite <- (rev_involutive vs), E. cbn [rev]. apply last_last. Qed.
Ltac dec := repeat (cbn [orb andb lexInsert hullPop hullPush fold_left fold_right rev app tl removelast x2 y2]; unfold LexSortPred, PerpDot2D; cbn [x2 y2]; rsimpl; match goal with
  | |- context [Rltb ?a ?b] => first [replace (Rltb a b) with true by (symmetry; apply Rltb_true; lra)|replace (Rltb a b) with false by (symmetry; apply Rltb_false; lra)]
  | |- context [Rleb ?a ?b] => first [replace (Rleb a b) with true by (symmetry; apply Rleb_true; lra)|replace (Rleb a b) with false by (symmetry; apply Rleb_false; lra)]
  | |- context [Reqb ?a ?b] => destruct (Reqb_spec a b); try lra end); cbn [orb andb lexInsert hullPop hullPush fold_left fold_right rev app tl removelast].
(** ConvexHullContains: true exactly when the point is not further right of an edge than the tolerance. *)
Theorem C83_contains (vs : list p2) (p : p2) :
  (ConvexHullContains vs p = true <-> forall a b, In (a, b) (polygon_edges vs) -> - (1 / 100000) < turn a b p) /\
  (float2_ConvexHullContains vs p = true <-> (3 <= length vs)%nat /\ forall a b, In (a, b) (polygon_edges vs) -> - (1 / 1000000) <= turn a b p).
Proof.
  split.
  - unfold ConvexHullContains. change (v2 R) with p2. destruct (rev vs) as [|l r] eqn:E.
    + apply (f_equal (@rev p2)) in E. rewrite rev_involutive in E. subst vs. split; [intros _ a b []|reflexivity].
    + etransitivity; [apply loop_R|]. destruct vs as [|v vs]; [discriminate|]. unfold polygon_edges. rewrite (last_rev _ l r v E). split; intros H a b X; specialize (H a b X); revert H; rsimpl; rewrite Rleb_false; lra.
  - unfold float2_ConvexHullContains. change (v2 R) with p2. assert (L : length (rev vs) = length vs) by apply rev_length. destruct (rev vs) as [|l [|l1 [|l2 r]]] eqn:E; cbn in L; try (split; [discriminate|lia]).
    etransitivity; [apply loop_R|]. destruct vs as [|v vs]; [discriminate|]. unfold polygon_edges. rewrite (last_rev _ l _ v E).
    split; [intros H; split; [lia|]|intros [_ H]]; intros a b X; specialize (H a b X); revert H; rsimpl; rewrite Rltb_false; lra.
Qed.
(** Every point of a convex polygon is reported; a point at distance 1e-5/|ab| or more beyond an edge ab is not. *)
Theorem C83_contains_polygon (vs : list p2) (p : p2) : ccw_polygon vs -> (3 <= length vs)%nat ->
  (in_hull2 vs p -> ConvexHullContains vs p = true /\ float2_ConvexHullContains vs p = true) /\
  (~ in_hull2 vs p -> exists a b, In (a, b) (polygon_edges vs) /\ turn a b p < 0 /\ (turn a b p <= - (1 / 100000) -> ConvexHullContains vs p = false) /\ (turn a b p < - (1 / 1000000) -> float2_ConvexHullContains vs p = false)).
Proof.
  intros C L. destruct (C83_contains vs p) as [K1 K2]. split.
  - intros H. pose proof (proj1 (C83_halfplanes vs p C L) H) as H'. split; [apply K1|apply K2; split; [exact L|]]; intros a b E; specialize (H' a b E); lra.
  - intros H. destruct (Classical_Prop.classic (exists a b, In (a, b) (polygon_edges vs) /\ turn a b p < 0)) as [(a & b & E & T)|X].
    + exists a, b. split; [exact E|]. split; [exact T|]. split; intros T'.
      * apply Bool.not_true_is_false. intros F. pose proof (proj1 K1 F a b E). lra.
      * apply Bool.not_true_is_false. intros F. apply (proj1 K2) in F. destruct F as [_ F]. specialize (F a b E). lra.
    + exfalso. apply H. apply (C83_halfplanes vs p C L). intros a b E. apply Rnot_lt_le. intros T. apply X. now exists a, b.
Qed.
(** float2::ConvexHullContains on hulls with fewer than three vertices: a single vertex contains every point, two vertices contain their whole line. *)
Theorem C83_small_hull_refuted : (forall v p : p2, ConvexHullContains [v] p = true) /\ (forall p : p2, ConvexHullContains [] p = true) /\
  ConvexHullInPlace [V2 0 0; V2 1 0] = [V2 0 0; V2 1 0] /\ ConvexHullContains [V2 0 0; V2 1 0] (V2 100 0) = true /\ ~ in_hull2 [V2 0 0; V2 1 0] (V2 100 0).
Proof.
  split; [intros v p; apply (C83_contains [v] p); intros a b [E|[]]; injection E as <- <-; rewrite turn_stay; lra|]. split; [reflexivity|]. split.
  - rewrite inplace_R. assert (S : lexSort [V2 0 0; V2 1 0] = [V2 0 0; V2 1 0]) by (unfold lexSort; dec; reflexivity).
    rewrite S, both_two. apply finish_same.
    + constructor; [intros [E|[]]; apply (f_equal x2) in E; cbn in E; lra|]. constructor; [intros []|constructor].
    + assert (D : dst (V2 0 0) (V2 1 0) = 1) by (unfold dst, nrm, dt, mi; cbn; replace ((0 - 1) * (0 - 1) + (0 - 0) * (0 - 0)) with 1 by ring; apply sqrt_1).
      intros a b [ <- |[ <- |[]]] [ <- |[ <- |[]]] N; try contradiction; [|rewrite dst_sym]; rewrite D; lra.
  - split.
    + apply C83_contains. intros a b [E|[E|[]]]; injection E as <- <-; tunf; cbn; lra.
    + intros H. specialize (H (fun q => x2 q <= 1)). cbn beta in H. cbn [x2] in H. assert (100 <= 1); [|lra]. apply H.
      * intros a b t T A B. unfold pl, sc, mi. cbn. nra.
      * intros v [ <- |[ <- |[]]]; cbn; lra.
Qed.
(** A unit square with an interior point and an edge midpoint: the hull is exact. *)
Definition demo : list p2 := [V2 1 1; V2 (1/2) (1/2); V2 0 0; V2 1 0; V2 (1/2) 0; V2 0 1].
Example C83_witness : (forall a b, In a demo -> In b demo -> a <> b -> 1 / 1000 < dst a b) /\ ~ collinear demo /\ ConvexHullInPlace demo = [V2 0 0; V2 1 0; V2 1 1; V2 0 1].
Proof.
  assert (FAR : forall a b, In a demo -> In b demo -> a <> b -> 1 / 1000 < dst a b).
  { intros a b A B N. destruct (Rlt_or_le (1 / 1000) (dst a b)) as [H|H]; [exact H|]. exfalso.
    assert (Q : dt (mi a b) (mi a b) <= 1 / 1000000) by (rewrite <- nrm_sq; fold (dst a b); pose proof (dst_pos a b); nra).
    unfold demo in A, B. cbn [In] in A, B. repeat (destruct A as [ <- |A]; [repeat (destruct B as [ <- |B]; [try (now apply N); unfold dt, mi in Q; cbn in Q; lra|]); destruct B|]); destruct A. }
  split; [exact FAR|]. split.
  - intros C. specialize (C (V2 0 0) (V2 1 0) (V2 1 1)). assert (turn (V2 0 0) (V2 1 0) (V2 1 1) = 1) by (tunf; cbn; ring). rewrite C in H by (unfold demo; cbn; tauto). lra.
  - rewrite inplace_R. assert (S : lexSort demo = [V2 0 0; V2 0 1; V2 (1/2) 0; V2 (1/2) (1/2); V2 1 0; V2 1 1]) by (unfold lexSort, demo; dec; reflexivity).
    assert (B : hullBoth (lexSort demo) = [V2 0 0; V2 1 0; V2 1 1; V2 0 1]).
    { rewrite S. unfold hullBoth, hullChain. unfold hullPush. dec. reflexivity. }
    rewrite B. apply finish_same.
    + repeat constructor; cbn [In]; intros H; repeat destruct H as [H|H]; try contradiction; apply (f_equal x2) in H as H1; apply (f_equal y2) in H as H2; cbn in *; lra.
    + intros a b X Y. apply FAR; unfold demo; cbn [In] in *; tauto.
Qed.
Print Assumptions C83_hull.
Print Assumptions C83_exact.
Print Assumptions C83_line.
Print Assumptions C83_halfplanes.
Print Assumptions C83_contains_polygon.
Print Assumptions C83_small_hull_refuted.
