(** C83: the convex hull of points in the plane. *)
From Coq Require Import Reals Psatz List Bool Permutation Sorting.Sorted.
From Verif Require Import Num NumR ScalarModel ScalarProofs Vec2Model Vec2Spec Vec2Props HullModel HullSpec HullProofs HullProofs2.
Import ListNotations.
Open Scope R_scope.
Ltac Zify.zify_post_hook ::= idtac.

Lemma pop_nonempty (st : list p2) q : st <> [] -> hullPop st q <> [].
Proof.
  induction st as [|a st IH]; [contradiction|]. intros _. destruct st as [|b st]; [discriminate|]. change (hullPop (a :: b :: st) q) with (if nleb (PerpDot2D b a q) n0 then hullPop (b :: st) q else a :: b :: st). destruct (nleb _ _); [apply IH; discriminate|discriminate].
Qed.
Lemma chain_snoc (p q : p2) l : hullChain p (l ++ [q]) = q :: hullPop (hullChain p l) q.
Proof. unfold hullChain. rewrite fold_left_app. reflexivity. Qed.
Lemma chain_nonempty (p : p2) l : hullChain p l <> [].
Proof. destruct (rev l) as [|q r] eqn:E; [rewrite <- (rev_involutive l), E; discriminate|]. rewrite <- (rev_involutive l), E. cbn [rev]. rewrite chain_snoc. discriminate. Qed.
Lemma sides p0 mid pn : lexsorted (p0 :: mid ++ [pn]) -> let S p := In p (p0 :: mid ++ [pn]) in
  exists lo up, hullBoth (p0 :: mid ++ [pn]) = p0 :: rev lo ++ [pn] ++ rev up /\ good S (pn :: lo ++ [p0]) /\ good (fun p => S (neg p)) (map neg (p0 :: up ++ [pn])) /\
    (forall x, In x lo -> S x) /\ (forall x, In x up -> S x) /\ (forall p, S p -> lexle p0 p /\ lexle p pn).
Proof.
  intros L S. pose proof (chain_ok p0 (mid ++ [pn]) L) as (G1 & I1 & _ & B1 & _ & O1).
  assert (RV : rev (p0 :: mid ++ [pn]) = pn :: rev mid ++ [p0]) by (cbn [rev]; rewrite rev_app_distr; reflexivity).
  pose proof (sorted_neg _ L) as L'. rewrite RV in L'. cbn [map] in L'. rewrite map_app in L'. cbn [map] in L'. change ([neg p0]) with (map neg [p0]) in L'. rewrite <- map_app in L'.
  pose proof (chain_ok (neg pn) (map neg (rev mid ++ [p0])) L') as (G2 & I2 & _ & B2 & _ & _). rewrite chain_neg in G2, I2, B2. rewrite chain_snoc in *.
  assert (E1 : exists lo, hullPop (hullChain p0 mid) pn = lo ++ [p0]).
  { destruct (exists_last (pop_nonempty _ pn (chain_nonempty p0 mid))) as (lo & z & E). exists lo. rewrite E in B1 |- *. change (pn :: lo ++ [z]) with ((pn :: lo) ++ [z]) in B1. rewrite last_last in B1. now rewrite B1. }
  assert (E2 : exists up, hullPop (hullChain pn (rev mid)) p0 = up ++ [pn]).
  { destruct (exists_last (pop_nonempty _ p0 (chain_nonempty pn (rev mid)))) as (up & z & E). exists up. rewrite E in B2 |- *. change (p0 :: up ++ [z]) with ((p0 :: up) ++ [z]) in B2. rewrite map_app in B2. cbn [map] in B2. change (neg p0 :: map neg up) with (map neg (p0 :: up)) in B2. 
    change ([neg z]) with (map neg [z]) in B2. cbn [map] in B2. replace ((neg p0 :: map neg up) ++ [neg z]) with ((neg p0 :: map neg up) ++ [neg z]) in B2 by reflexivity. rewrite last_last in B2. apply (f_equal neg) in B2. rewrite !neg_neg in B2. now rewrite B2. }
  destruct E1 as (lo & E1), E2 as (up & E2). rewrite E1 in G1, I1. rewrite E2 in G2, I2. exists lo, up. split.
  - unfold hullBoth. change (v2 R) with p2. rewrite RV. rewrite chain_snoc, E1. rewrite removelast_last, E2. rewrite rev_app_distr. cbn [rev app tl]. rewrite rev_app_distr. cbn [rev app]. now rewrite <- !app_assoc.
  - split; [exact G1|]. split.
    + apply (good_ext (fun p => In p (neg pn :: map neg (rev mid ++ [p0])))); [|exact G2]. intros p P. change (In p (map neg (pn :: rev mid ++ [p0]))). rewrite <- RV. apply in_map_iff. exists (neg p). split; [apply neg_neg|]. now apply -> in_rev.
    + split; [intros x X; apply I1; right; apply in_or_app; now left|]. split.
      * intros x X. assert (J : In (neg x) (neg pn :: map neg (rev mid ++ [p0]))) by (apply I2; apply in_map; right; apply in_or_app; now left). change (In (neg x) (map neg (pn :: rev mid ++ [p0]))) in J. rewrite <- RV in J. apply in_map_iff in J. destruct J as (y & E & Y). apply (f_equal neg) in E. rewrite !neg_neg in E. subst y. now apply in_rev.
      * intros p P. destruct (O1 p P) as [A B]. split; [exact A|]. assert (LL : last (p0 :: mid ++ [pn]) p0 = pn) by (change (p0 :: mid ++ [pn]) with ((p0 :: mid) ++ [pn]); apply last_last). now rewrite LL in B.
Qed.
Lemma both_edges p0 lo pn up a b : In (a, b) (polygon_edges (p0 :: rev lo ++ [pn] ++ rev up)) <-> adj (pn :: lo ++ [p0]) a b \/ adj (p0 :: up ++ [pn]) a b.
Proof.
  rewrite closed_edges. replace ((rev lo ++ [pn] ++ rev up) ++ [p0]) with ((rev lo ++ [pn]) ++ (rev up ++ [p0])) by (rewrite <- !app_assoc; reflexivity). rewrite path_app, last_last, in_app_iff.
  rewrite (rev_adj p0 (rev lo ++ [pn]) a b (pn :: lo ++ [p0])), (rev_adj pn (rev up ++ [p0]) a b (p0 :: up ++ [pn])); [reflexivity| |]; cbn [rev]; rewrite rev_app_distr; reflexivity.
Qed.
Section Both.
  Context (p0 pn : p2) (lo up : list p2) (S : p2 -> Prop) (G1 : good S (pn :: lo ++ [p0])) (G2 : good (fun p => S (neg p)) (map neg (p0 :: up ++ [pn]))).
  Context (I1 : forall x, In x lo -> S x) (I2 : forall x, In x up -> S x) (O : forall p, S p -> lexle p0 p /\ lexle p pn) (S0 : S p0) (Sn : S pn).
  Let H := p0 :: rev lo ++ [pn] ++ rev up.
  Lemma lower_adj b a : adj (pn :: lo ++ [p0]) b a -> lexle b a /\ forall p, S p -> 0 <= turn b a p.
  Proof. intros A. exact (good_adj S _ b a G1 A). Qed.
  Lemma upper_adj b a : adj (p0 :: up ++ [pn]) b a -> lexle a b /\ forall p, S p -> 0 <= turn b a p.
  Proof.
    intros A. apply adj_neg in A. destruct (good_adj _ _ _ _ G2 A) as [L T]. split; [now apply lexle_neg|]. intros p P. rewrite <- turn_neg. apply T. now rewrite neg_neg.
  Qed.
  Lemma lower_in x : In x (pn :: lo ++ [p0]) -> In x H /\ S x.
  Proof. unfold H. cbn [In]. rewrite !in_app_iff, <- !in_rev. cbn [In]. intros [ <- |[X|[ <- |[]]]]; (split; [auto 8|auto]). Qed.
  Lemma upper_in x : In x (p0 :: up ++ [pn]) -> In x H /\ S x.
  Proof. unfold H. cbn [In]. rewrite !in_app_iff, <- !in_rev. cbn [In]. intros [ <- |[X|[ <- |[]]]]; (split; [auto 8|auto]). Qed.
  Lemma both_in x : In x H <-> In x (pn :: lo ++ [p0]) \/ In x (p0 :: up ++ [pn]).
  Proof. unfold H. cbn [In]. rewrite !in_app_iff, <- !in_rev. cbn [In]. tauto. Qed.
  Lemma both_left a b p : In (a, b) (polygon_edges H) -> S p -> 0 <= turn a b p.
  Proof. intros E P. apply both_edges in E. destruct E as [E|E]; [now apply lower_adj|now apply upper_adj]. Qed.
  Lemma snoc_second (x y : p2) l : exists z r, x :: l ++ [y] = x :: z :: r.
  Proof. destruct l as [|z l]; [now exists y, []|now exists z, (l ++ [y])]. Qed.
  Lemma both_hull p : S p -> in_hull2 H p.
  Proof.
    intros P A CV HA. destruct (O p P) as [P0 Pn].
    destruct (snoc_second pn p0 lo) as (z & r & E). destruct (cover S _ G1 p pn z r E) as (b & a & AD & BP & PA).
    { change (pn :: lo ++ [p0]) with ((pn :: lo) ++ [p0]). now rewrite last_last. }
    { exact Pn. }
    destruct (snoc_second p0 pn up) as (z' & r' & E'). assert (E2 : map neg (p0 :: up ++ [pn]) = neg p0 :: neg z' :: map neg r') by (rewrite E'; reflexivity).
    destruct (cover _ _ G2 (neg p) (neg p0) (neg z') (map neg r') E2) as (d & c & (f & t & AD') & CP & PD).
    { change (p0 :: up ++ [pn]) with ((p0 :: up) ++ [pn]). rewrite map_app. cbn [map]. change ([neg pn]) with ([neg pn]). rewrite last_last. now apply lexle_neg. }
    { now apply lexle_neg. }
    assert (AD2 : adj (p0 :: up ++ [pn]) (neg d) (neg c)).
    { exists (map neg f), (map neg t). apply (f_equal (map neg)) in AD'. rewrite map_map in AD'. rewrite (map_ext _ (fun x => x)), map_id in AD' by (intros; apply neg_neg). rewrite AD', map_app. reflexivity. }
    destruct (lower_adj _ _ AD) as [_ T1]. destruct (upper_adj _ _ AD2) as [_ T2].
    apply adj_in in AD. apply adj_in in AD2. apply (between_edges A b a (neg c) (neg d) p); try assumption.
    1, 2: apply HA, lower_in; tauto. 1, 2: apply HA, upper_in; tauto.
    - apply lexle_neg. now rewrite neg_neg.
    - apply lexle_neg. now rewrite neg_neg.
    - now apply T1.
    - now apply T2.
  Qed.
  (** Not all on one line. *)
  Context (NC : exists a b c, S a /\ S b /\ S c /\ turn a b c <> 0).
  Lemma on_line_all u v : u <> v -> (forall p, S p -> turn u v p = 0) -> False.
  Proof.
    intros N T. destruct NC as (a & b & c & A & B & C & K). apply K. apply T in A, B, C. revert A B C. clear K. tunf. intros A B C.
    assert (D : x2 v - x2 u <> 0 \/ y2 v - y2 u <> 0). { destruct (Req_dec (x2 v) (x2 u)) as [X|X]; [|left; lra]. right. intros Y. apply N. apply v2_ext; lra. }
    set (dx := x2 v - x2 u) in *. set (dy := y2 v - y2 u) in *. destruct D as [D|D].
    - apply (Rmult_eq_reg_l dx); [|exact D]. rewrite Rmult_0_r.
      replace (dx * _) with ((x2 b - x2 a) * ((dx * (y2 c - y2 u) - dy * (x2 c - x2 u)) - (dx * (y2 a - y2 u) - dy * (x2 a - x2 u))) - (x2 c - x2 a) * ((dx * (y2 b - y2 u) - dy * (x2 b - x2 u)) - (dx * (y2 a - y2 u) - dy * (x2 a - x2 u)))) by ring. rewrite A, B, C. ring.
    - apply (Rmult_eq_reg_l dy); [|exact D]. rewrite Rmult_0_r.
      replace (dy * _) with ((y2 b - y2 a) * ((dx * (y2 c - y2 u) - dy * (x2 c - x2 u)) - (dx * (y2 a - y2 u) - dy * (x2 a - x2 u))) - (y2 c - y2 a) * ((dx * (y2 b - y2 u) - dy * (x2 b - x2 u)) - (dx * (y2 a - y2 u) - dy * (x2 a - x2 u)))) by ring. rewrite A, B, C. ring.
  Qed.
  Lemma ends_differ : p0 <> pn.
  Proof.
    intros E. destruct NC as (a & b & c & A & B & C & K). apply K. destruct (O a A) as [A1 A2], (O b B) as [B1 B2]. rewrite <- E in A2, B2. assert (EB : b = p0) by now apply lexle_anti. rewrite EB. replace a with p0 by (symmetry; now apply lexle_anti). apply turn_stay.
  Qed.
End Both.
Lemma good_sorted S st : good S st -> (forall a b, st = [a; b] -> a <> b) -> StronglySorted (fun x y => lexle y x /\ x <> y) st.
Proof.
  intros G N. apply Sorted_StronglySorted.
  - intros x y z [A B] [C D]. split; [now apply (lexle_trans _ y)|]. intros ->. apply B. now apply lexle_anti.
  - revert G N. induction st as [|a st IH]; intros G N; [constructor|]. destruct st as [|b st]; [repeat constructor|]. assert (G' : good S (b :: st)) by (cbn [good] in G |- *; apply G). cbn [good] in G. destruct G as (BA & _ & T & _).
    assert (AB : a <> b) by (destruct st as [|c st]; [now apply N|intros ->; rewrite turn_same in T; lra]).
    constructor; [apply IH; [exact G'|]|constructor; now split]. intros a' b' E. injection E as -> ->. intros ->. rewrite turn_stay in T. lra.
Qed.
Lemma sorted_nodup st : StronglySorted (fun x y => lexle y x /\ x <> y) st -> NoDup st.
Proof. induction 1 as [|x l S IH F]; constructor; [|exact IH]. intros X. rewrite Forall_forall in F. destruct (F x X) as [_ N]. now apply N. Qed.
Lemma nodup_app_l (A : Type) (l l' : list A) : NoDup (l ++ l') -> NoDup l'.
Proof. induction l as [|x l IH]; [trivial|]. cbn. intros N. inversion N; subst. now apply IH. Qed.
Lemma nodup_app_r (A : Type) (l l' : list A) : NoDup (l ++ l') -> NoDup l.
Proof. intros N. apply (Permutation_NoDup (Permutation_app_comm l l')) in N. now apply nodup_app_l in N. Qed.
Lemma nodup_split (A : Type) (l : list A) b f t f' t' : NoDup l -> l = f ++ b :: t -> l = f' ++ b :: t' -> f = f' /\ t = t'.
Proof.
  intros N E E'. subst l. revert f' E' N. induction f as [|x f IH]; intros f' E' N.
  - destruct f' as [|y f']; [injection E' as ->; now split|]. injection E' as -> ->. cbn in N. inversion N as [|? ? N1 N2]; subst. exfalso. apply N1. apply in_or_app. right. now left.
  - destruct f' as [|y f'].
    + injection E' as -> <-. cbn in N. inversion N as [|? ? N1 N2]; subst. exfalso. apply N1. apply in_or_app. right. now left.
    + injection E' as -> E'. cbn in N. inversion N; subst. destruct (IH f' E') as [-> ->]; [assumption|now split].
Qed.
Lemma adj_three st a b c : NoDup st -> adj st a b -> adj st b c -> exists f t, st = f ++ c :: b :: a :: t.
Proof.
  intros N (f & t & E) (f' & t' & E'). assert (E2 : st = (f' ++ [c]) ++ b :: t') by (rewrite <- app_assoc; exact E'). destruct (nodup_split _ st b f (a :: t) (f' ++ [c]) t' N E E2) as [_ <-]. now exists f', t.
Qed.
Lemma interior (x y v : p2) l : In v l -> exists f t w u, x :: l ++ [y] = f ++ w :: v :: u :: t.
Proof.
  intros V. apply in_split in V. destruct V as (l1 & l2 & ->). destruct (@exists_last _ (x :: l1)) as (f & w & E); [discriminate|].
  assert (E2 : exists u t, l2 ++ [y] = u :: t) by (destruct l2 as [|u l2]; [now exists y, []|now exists u, (l2 ++ [y])]). destruct E2 as (u & t & E2).
  exists f, t, w, u. rewrite <- E2. rewrite <- app_assoc. cbn [app]. change (x :: l1 ++ v :: l2 ++ [y]) with ((x :: l1) ++ v :: l2 ++ [y]). rewrite E, <- app_assoc. reflexivity.
Qed.
Lemma clash u v w e : 0 < turn u v w -> 0 <= turn u v e -> 0 <= turn v w e -> 0 <= turn v e w -> lexle v w -> lexle e v -> e <> v -> False.
Proof.
  intros D A B B' VW EV N.
  assert (E1 : turn u v w * (x2 e - x2 v) = turn u v e * (x2 w - x2 v) - turn v w e * (x2 v - x2 u)) by (tunf; ring).
  assert (E2 : turn u v w * (y2 e - y2 v) = turn u v e * (y2 w - y2 v) - turn v w e * (y2 v - y2 u)) by (tunf; ring).
  assert (B0 : turn v w e = 0) by (assert (turn v e w = - turn v w e) by (tunf; ring); lra). rewrite B0 in E1, E2. set (d := turn u v w) in *. set (a := turn u v e) in *. clearbody d a. clear B B' B0.
  unfold lexle in *. destruct EV as [EV|[EV1 EV2]]; [nra|]. assert (Y : y2 e < y2 v) by (destruct (Rle_lt_or_eq_dec _ _ EV2) as [H|H]; [exact H|]; exfalso; apply N; now apply v2_ext).
  assert (A0 : 0 < a) by (destruct (Rle_lt_or_eq_dec _ _ A) as [H|H]; [exact H|]; subst a; nra). destruct VW as [VW|[VW1 VW2]]; nra.
Qed.
Lemma same_side u w : right u -> right w -> u <> o2 -> w <> o2 -> area2 u w = 0 -> exists k, 0 < k /\ forall z, area2 w z = k * area2 u z.
Proof.
  intros U W NU NW E. unfold right, area2 in *. destruct u as [ux uy], w as [wx wy]. cbn [x2 y2] in *. destruct U as [U|[U1 U2]].
  - exists (wx / ux). assert (WY : wy = wx / ux * uy) by (apply (Rmult_eq_reg_l ux); [|lra]; replace (ux * (wx / ux * uy)) with (wx * uy) by (field; lra); lra). assert (WX : 0 < wx). { destruct W as [W|[W1 W2]]; [exact W|]. exfalso. subst wx. apply NW. unfold o2. f_equal. rewrite WY. field. lra. }
    split; [apply Rmult_lt_0_compat; [exact WX|now apply Rinv_0_lt_compat]|]. intros [zx zy]. cbn [x2 y2]. rewrite WY at 1. field. lra.
  - subst ux. assert (U3 : 0 < uy) by (destruct (Rle_lt_or_eq_dec _ _ U2) as [H|H]; [exact H|]; exfalso; apply NU; subst; reflexivity). assert (WX : wx = 0) by nra. subst wx. assert (W3 : 0 < wy). { destruct W as [W|[_ W]]; [lra|]. destruct (Rle_lt_or_eq_dec _ _ W) as [H|H]; [exact H|]. exfalso. apply NW. subst. reflexivity. }
    exists (wy / uy). split; [apply Rmult_lt_0_compat; [exact W3|now apply Rinv_0_lt_compat]|]. intros [zx zy]. cbn [x2 y2]. field. lra.
Qed.
Section Both2.
  Context (p0 pn : p2) (lo up : list p2) (S : p2 -> Prop) (G1 : good S (pn :: lo ++ [p0])) (G2 : good (fun p => S (neg p)) (map neg (p0 :: up ++ [pn]))).
  Context (I1 : forall x, In x lo -> S x) (I2 : forall x, In x up -> S x) (O : forall p, S p -> lexle p0 p /\ lexle p pn) (S0 : S p0) (Sn : S pn).
  Context (NC : exists a b c, S a /\ S b /\ S c /\ turn a b c <> 0).
  Lemma lower_sorted : StronglySorted (fun x y => lexle y x /\ x <> y) (pn :: lo ++ [p0]).
  Proof.
    apply (good_sorted S); [exact G1|]. intros a b E. destruct lo as [|x [|y l]]; try discriminate. injection E as <- <-. intros E. exact (ends_differ p0 pn S O NC (eq_sym E)).
  Qed.
  Lemma upper_sorted : StronglySorted (fun x y => lexle y x /\ x <> y) (map neg (p0 :: up ++ [pn])).
  Proof.
    apply (good_sorted _ _ G2). intros a b E. destruct up as [|x [|y l]]; try discriminate. injection E as <- <-. intros E. apply (f_equal neg) in E. rewrite !neg_neg in E. exact (ends_differ p0 pn S O NC E).
  Qed.
  Lemma lower_nodup : NoDup (pn :: lo ++ [p0]). Proof. exact (sorted_nodup _ lower_sorted). Qed.
  Lemma upper_nodup : NoDup (p0 :: up ++ [pn]).
  Proof. pose proof (sorted_nodup _ upper_sorted) as N. exact (NoDup_map_inv _ _ N). Qed.
  Lemma lower_three f t a b c : pn :: lo ++ [p0] = f ++ c :: b :: a :: t -> 0 < turn a b c.
  Proof. apply (good_three S). exact G1. Qed.
  Lemma upper_three f t a b c : p0 :: up ++ [pn] = f ++ c :: b :: a :: t -> 0 < turn a b c.
  Proof. intros E. rewrite <- turn_neg. apply (good_three _ _ (map neg f) (neg c) (neg b) (neg a) (map neg t) G2). rewrite E, map_app. reflexivity. Qed.
  Lemma no_common v : In v lo -> In v up -> False.
  Proof.
    intros L U. destruct (interior pn p0 v lo L) as (f & t & w & u & E). destruct (interior p0 pn v up U) as (f' & t' & e & d & E').
    assert (AW : adj (pn :: lo ++ [p0]) v w) by (exists f, (u :: t); exact E). assert (AU : adj (pn :: lo ++ [p0]) u v) by (exists (f ++ [w]), t; rewrite <- app_assoc; exact E).
    assert (AE : adj (p0 :: up ++ [pn]) v e) by (exists f', (d :: t'); exact E').
    assert (Se : S e) by (apply adj_in in AE; apply (upper_in p0 pn lo up S I2 S0 Sn e); tauto). assert (Sw : S w) by (apply adj_in in AW; apply (lower_in p0 pn lo up S I1 S0 Sn w); tauto).
    destruct (lower_adj p0 pn lo S G1 _ _ AW) as [L1 T1]. destruct (lower_adj p0 pn lo S G1 _ _ AU) as [L2 T2]. destruct (upper_adj p0 pn up S G2 _ _ AE) as [L3 T3].
    apply (clash u v w e); [exact (lower_three f t u v w E)|now apply T2|now apply T1|now apply T3|exact L1|exact L3|].
    intros ->. pose proof upper_nodup as N. rewrite E' in N. apply nodup_app_l in N. inversion N as [|? ? N1 N2]; subst. apply N1. now left.
  Qed.
  Let H := p0 :: rev lo ++ [pn] ++ rev up.
  Lemma both_nodup : NoDup H.
  Proof.
    pose proof lower_nodup as N1. pose proof upper_nodup as N2. pose proof no_common as NO.
    assert (N1' : NoDup (p0 :: rev lo ++ [pn])) by (apply (Permutation_NoDup (l := pn :: lo ++ [p0])); [|exact N1]; transitivity (rev (pn :: lo ++ [p0])); [apply Permutation_rev|]; cbn [rev]; rewrite rev_app_distr; reflexivity).
    unfold H. rewrite app_assoc. change (p0 :: (rev lo ++ [pn]) ++ rev up) with ((p0 :: rev lo ++ [pn]) ++ rev up).
    assert (NU : NoDup (rev up)) by (apply NoDup_rev; inversion N2 as [|? ? _ N3]; subst; apply nodup_app_r in N3; exact N3).
    assert (D : forall x, In x (p0 :: rev lo ++ [pn]) -> In x (rev up) -> False).
    { intros x X Y. apply in_rev in Y. cbn [In] in X. rewrite in_app_iff, <- in_rev in X. cbn [In] in X. destruct X as [ <- |[X|[ <- |[]]]].
      - inversion N2 as [|? ? N3 _]; subst. apply N3. apply in_or_app. now left.
      - now apply (NO x).
      - inversion N2 as [|? ? _ N3]; subst. apply NoDup_remove_2 in N3. apply N3. rewrite app_nil_r. exact Y. }
    revert N1' NU D. generalize (p0 :: rev lo ++ [pn]) (rev up). clear. intros l1 l2 A B D. induction l1 as [|x l1 IH]; [exact B|]. cbn. inversion A as [|? ? A1 A2]; subst. constructor.
    - rewrite in_app_iff. intros [X|X]; [now apply A1|]. apply (D x); [now left|exact X].
    - apply IH; [exact A2|]. intros y Y. apply D. now right.
  Qed.
  Lemma flat_end v a c : S a -> S c -> a <> v -> c <> v -> (forall p, S p -> 0 <= turn a v p) -> (forall p, S p -> 0 <= turn v c p) -> (lexle a v /\ lexle c v \/ lexle v a /\ lexle v c) -> 0 < turn a v c.
  Proof.
    intros Sa Sc NA NCC TA TC L. destruct (Rle_lt_or_eq_dec _ _ (TA c Sc)) as [P|Z]; [exact P|]. exfalso. apply (on_line_all S NC a v NA). intros p P. specialize (TA p P). specialize (TC p P). destruct L as [[LA LC]|[LA LC]].
    - destruct (same_side (mi v a) (mi v c)) as (k & K & HK); [now apply right_mi|now apply right_mi| | |tunf; lra|].
      { intros X; apply NA; apply (f_equal x2) in X as X1; apply (f_equal y2) in X as X2; tunf; apply v2_ext; lra. }
      { intros X; apply NCC; apply (f_equal x2) in X as X1; apply (f_equal y2) in X as X2; tunf; apply v2_ext; lra. }
      specialize (HK (mi p v)). assert (E1 : turn a v p = area2 (mi v a) (mi p v)) by (tunf; ring). assert (E2 : turn v c p = - area2 (mi v c) (mi p v)) by (tunf; ring). rewrite E1 in *. rewrite E2, HK in TC. nra.
    - destruct (same_side (mi a v) (mi c v)) as (k & K & HK); [now apply right_mi|now apply right_mi| | |tunf; lra|].
      { intros X; apply NA; apply (f_equal x2) in X as X1; apply (f_equal y2) in X as X2; tunf; apply v2_ext; lra. }
      { intros X; apply NCC; apply (f_equal x2) in X as X1; apply (f_equal y2) in X as X2; tunf; apply v2_ext; lra. }
      specialize (HK (mi p v)). assert (E1 : turn a v p = - area2 (mi a v) (mi p v)) by (tunf; ring). assert (E2 : turn v c p = area2 (mi c v) (mi p v)) by (tunf; ring). rewrite E1 in *. rewrite E2, HK in TC. nra.
  Qed.
  Lemma adj_differ st a b : NoDup st -> adj st a b -> a <> b.
  Proof. intros N (f & t & ->) ->. apply nodup_app_l in N. inversion N as [|? ? N1 _]; subst. apply N1. now left. Qed.
  Lemma both_corner a b c : In (a, b) (polygon_edges H) -> In (b, c) (polygon_edges H) -> 0 < turn a b c.
  Proof.
    intros E1 E2. apply both_edges in E1, E2. pose proof lower_nodup as N1. pose proof upper_nodup as N2.
    destruct E1 as [E1|E1], E2 as [E2|E2].
    - destruct (adj_three _ a b c N1 E1 E2) as (f & t & E). exact (lower_three f t a b c E).
    - pose proof (adj_in _ _ _ E1) as [B1 A1]. pose proof (adj_in _ _ _ E2) as [C2 B2].
      destruct (lower_adj p0 pn lo S G1 _ _ E1) as [L1 T1]. destruct (upper_adj p0 pn up S G2 _ _ E2) as [L2 T2].
      apply flat_end; [apply (lower_in p0 pn lo up S I1 S0 Sn); exact A1|apply (upper_in p0 pn lo up S I2 S0 Sn); exact C2|exact (adj_differ _ _ _ N1 E1)|intros X; exact (adj_differ _ _ _ N2 E2 (eq_sym X))|exact T1|exact T2|left; now split].
    - pose proof (adj_in _ _ _ E1) as [B1 A1]. pose proof (adj_in _ _ _ E2) as [C2 B2].
      destruct (upper_adj p0 pn up S G2 _ _ E1) as [L1 T1]. destruct (lower_adj p0 pn lo S G1 _ _ E2) as [L2 T2].
      apply flat_end; [apply (upper_in p0 pn lo up S I2 S0 Sn); exact A1|apply (lower_in p0 pn lo up S I1 S0 Sn); exact C2|exact (adj_differ _ _ _ N2 E1)|intros X; exact (adj_differ _ _ _ N1 E2 (eq_sym X))|exact T1|exact T2|right; now split].
    - destruct (adj_three _ a b c N2 E1 E2) as (f & t & E). exact (upper_three f t a b c E).
  Qed.
  Lemma both_three : (3 <= length H)%nat.
  Proof.
    unfold H. cbn [length]. rewrite !app_length, !rev_length. cbn [length]. destruct lo as [|x l]; [|cbn [length]; Lia.lia]. destruct up as [|y u]; [|cbn [length]; Lia.lia]. exfalso.
    assert (A : adj [pn; p0] p0 pn) by (exists [], []; reflexivity). assert (B : adj [p0; pn] pn p0) by (exists [], []; reflexivity).
    destruct (good_adj S [pn; p0] _ _ G1 A) as [_ T1]. destruct (upper_adj p0 pn [] S G2 _ _ B) as [_ T2].
    apply (on_line_all S NC p0 pn (ends_differ p0 pn S O NC)). intros p P. specialize (T1 p P). specialize (T2 p P). rewrite turn_flip in T2. lra.
  Qed.
End Both2.
