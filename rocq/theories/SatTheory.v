(** The separating axis theorem for finitely generated convex sets in space: either two such sets share a point, or they are strictly separated
    by a direction that is determined by the corners it touches. *)
From Coq Require Import Reals Lra Psatz Bool List Classical.
From Verif Require Import Num NumR Vec3Model GeoTypes GeoSpec GeoLemmas LineModel LineSpec LineProps MatSpec MatProofs MatProofs2.
Import ListNotations.
Open Scope R_scope.
Ltac Zify.zify_post_hook ::= idtac.

(** The positive combinations of finitely many vectors. *)
Inductive pos (cs : list pt) : pt -> Prop :=
| pos_in c : In c cs -> pos cs c
| pos_add a b : pos cs a -> pos cs b -> pos cs (plus a b)
| pos_scale k a : 0 < k -> pos cs a -> pos cs (scale k a).
Lemma pos_mono cs ds v : (forall c, In c ds -> pos cs c) -> pos ds v -> pos cs v.
Proof. intros H. induction 1; [auto|now apply pos_add|now apply pos_scale]. Qed.

Lemma between (lo hi : list R) : (forall l h, In l lo -> In h hi -> l < h) -> exists x, (forall l, In l lo -> l < x) /\ (forall h, In h hi -> x < h).
Proof.
  intros H.
  assert (LO : (lo = [] \/ exists m, In m lo /\ forall l, In l lo -> l <= m)).
  { clear H. induction lo as [|l lo IH]; [now left|right]. destruct IH as [->|(m & M & B)]; [exists l; split; [now left|intros k [->|[]]; lra]|].
    destruct (Rle_dec l m); [exists m; split; [now right|intros k [->|K]; [lra|now apply B]]|exists l; split; [now left|intros k [->|K]; [lra|specialize (B k K); lra]]]. }
  assert (HI : (hi = [] \/ exists m, In m hi /\ forall l, In l hi -> m <= l)).
  { clear H. induction hi as [|l hi IH]; [now left|right]. destruct IH as [->|(m & M & B)]; [exists l; split; [now left|intros k [->|[]]; lra]|].
    destruct (Rle_dec m l); [exists m; split; [now right|intros k [->|K]; [lra|now apply B]]|exists l; split; [now left|intros k [->|K]; [lra|specialize (B k K); lra]]]. }
  destruct LO as [->|(l & L & BL)], HI as [->|(h & HH & BH)].
  - exists 0. split; intros ? [].
  - exists (h - 1). split; [intros ? []|]. intros k K. specialize (BH k K). lra.
  - exists (l + 1). split; [|intros ? []]. intros k K. specialize (BL k K). lra.
  - specialize (H l h L HH). exists ((l + h) / 2). split; intros k K; [specialize (BL k K)|specialize (BH k K)]; lra.
Qed.

(** Fourier-Motzkin elimination of the coordinate along [e]. *)
Definition pospart (e : pt) (cs : list pt) := filter (fun c => Rltb 0 (dot e c)) cs.
Definition negpart (e : pt) (cs : list pt) := filter (fun c => Rltb (dot e c) 0) cs.
Definition zeropart (e : pt) (cs : list pt) := filter (fun c => Reqb (dot e c) 0) cs.
Definition elim (e : pt) (cs : list pt) : list pt :=
  zeropart e cs ++ flat_map (fun p => map (fun n => plus (scale (dot e p) n) (scale (- dot e n) p)) (negpart e cs)) (pospart e cs).
Lemma elim_in e cs v : In v (elim e cs) <->
  (In v cs /\ dot e v = 0) \/ (exists p n, In p cs /\ In n cs /\ 0 < dot e p /\ dot e n < 0 /\ v = plus (scale (dot e p) n) (scale (- dot e n) p)).
Proof.
  unfold elim. rewrite in_app_iff, in_flat_map. unfold zeropart, negpart, pospart. rewrite filter_In. split.
  - intros [[A B]|(p & P & Q)].
    + left. split; [easy|]. destruct (Reqb_spec (dot e v) 0); [easy|discriminate].
    + right. apply filter_In in P. destruct P as [P1 P2]. apply in_map_iff in Q. destruct Q as (n & <- & N). apply filter_In in N. destruct N as [N1 N2].
      apply Rltb_true in P2. apply Rltb_true in N2. now exists p, n.
  - intros [[A B]|(p & n & P & N & P2 & N2 & ->)].
    + left. split; [easy|]. destruct (Reqb_spec (dot e v) 0); [easy|contradiction].
    + right. exists p. split; [apply filter_In; split; [easy|now apply Rltb_true]|]. apply in_map_iff. exists n. split; [easy|]. apply filter_In; split; [easy|now apply Rltb_true].
Qed.
Lemma elim_pos e cs v : In v (elim e cs) -> pos cs v /\ dot e v = 0.
Proof.
  intros H. apply elim_in in H. destruct H as [[A B]|(p & n & P & N & P2 & N2 & ->)]; [split; [now apply pos_in|easy]|]. split.
  - apply pos_add; apply pos_scale; try lra; now apply pos_in.
  - rewrite dot_plus_r, !dot_scale_r. lra.
Qed.
Lemma elim_zero e f cs : (forall c, In c cs -> dot f c = 0) -> forall c, In c (elim e cs) -> dot f c = 0.
Proof.
  intros H c C. apply elim_in in C. destruct C as [[A _]|(p & n & P & N & _ & _ & ->)]; [now apply H|]. rewrite dot_plus_r, !dot_scale_r, (H p P), (H n N). lra.
Qed.
Lemma elim_lift e cs m : (forall c, In c (elim e cs) -> 0 < dot m c) -> exists n, forall c, In c cs -> 0 < dot n c.
Proof.
  intros H.
  destruct (between (map (fun p => - dot m p / dot e p) (pospart e cs)) (map (fun q => - dot m q / dot e q) (negpart e cs))) as (x & L & U).
  { intros l h. rewrite !in_map_iff. intros (p & <- & P) (q & <- & Q). apply filter_In in P. apply filter_In in Q. destruct P as [P P2], Q as [Q Q2]. apply Rltb_true in P2. apply Rltb_true in Q2.
    assert (K : 0 < dot m (plus (scale (dot e p) q) (scale (- dot e q) p))) by (apply H, elim_in; right; now exists p, q). rewrite dot_plus_r, !dot_scale_r in K.
    replace (- dot m q / dot e q) with (dot m q / (- dot e q)) by (field; lra). apply Rmult_lt_reg_r with (dot e p); [easy|]. apply Rmult_lt_reg_r with (- dot e q); [lra|].
    replace (- dot m p / dot e p * dot e p * - dot e q) with (dot e q * dot m p) by (field; lra). replace (dot m q / - dot e q * dot e p * - dot e q) with (dot e p * dot m q) by (field; lra). lra. }
  exists (plus m (scale x e)). intros c C. rewrite dot_plus_l, dot_scale_l. destruct (Rtotal_order (dot e c) 0) as [N|[Z|P]].
  - assert (K : x < - dot m c / dot e c) by (apply U, in_map_iff; exists c; split; [easy|]; apply filter_In; split; [easy|now apply Rltb_true]).
    apply Rmult_lt_compat_r with (r := - dot e c) in K; [|lra]. replace (- dot m c / dot e c * - dot e c) with (dot m c) in K by (field; lra). lra.
  - rewrite Z. assert (K : 0 < dot m c) by (apply H, elim_in; now left). lra.
  - assert (K : - dot m c / dot e c < x) by (apply L, in_map_iff; exists c; split; [easy|]; apply filter_In; split; [easy|now apply Rltb_true]).
    apply Rmult_lt_compat_r with (r := dot e c) in K; [|lra]. replace (- dot m c / dot e c * dot e c) with (- dot m c) in K by (field; lra). lra.
Qed.
(** Gordan's alternative. *)
Theorem gordan cs : pos cs origin \/ exists n, forall c, In c cs -> 0 < dot n c.
Proof.
  set (e1 := V3 1 0 0). set (e2 := V3 0 1 0). set (e3 := V3 0 0 1). set (c1 := elim e1 cs). set (c2 := elim e2 c1). set (c3 := elim e3 c2).
  destruct c3 as [|v l] eqn:E.
  - right. destruct (elim_lift e3 c2 origin) as [n2 H2]; [fold c3; rewrite E; intros ? []|]. destruct (elim_lift e2 c1 n2 H2) as [n1 H1]. exact (elim_lift e1 cs n1 H1).
  - left. assert (V : In v c3) by (rewrite E; now left). destruct (elim_pos _ _ _ V) as [P3 Z3].
    assert (Z1 : forall c, In c c1 -> dot e1 c = 0) by (intros c C; exact (proj2 (elim_pos _ _ _ C))).
    assert (Z2 : forall c, In c c2 -> dot e2 c = 0) by (intros c C; exact (proj2 (elim_pos _ _ _ C))).
    assert (Z13 : dot e1 v = 0) by (apply (elim_zero e3 e1 c2); [apply (elim_zero e2 e1 c1); exact Z1|exact V]).
    assert (Z23 : dot e2 v = 0) by (apply (elim_zero e3 e2 c2); [exact Z2|exact V]).
    assert (v = origin) as <-. { destruct v as [x y z]. unfold dot, e1, e2, e3, origin in *. cbn in *. apply vec_ext; cbn; lra. }
    apply (pos_mono cs c1); [intros c C; exact (proj1 (elim_pos _ _ _ C))|]. apply (pos_mono c1 c2); [intros c C; exact (proj1 (elim_pos _ _ _ C))|]. exact P3.
Qed.

(** Among the solutions of [dot n c >= 1] there is one whose tight constraints span. *)
Definition slack (n : pt) (cs : list pt) : nat := length (filter (fun c => negb (Reqb (dot n c) 1)) cs).
Lemma slack_le n m cs : (forall c, In c cs -> dot n c = 1 -> dot m c = 1) -> (slack m cs <= slack n cs)%nat.
Proof.
  unfold slack. induction cs as [|c cs IH]; intros H; [apply le_n|]. cbn. specialize (IH (fun d D => H d (or_intror D))). specialize (H c (or_introl eq_refl)).
  destruct (Reqb_spec (dot n c) 1), (Reqb_spec (dot m c) 1); cbn; Lia.lia || tauto.
Qed.
Lemma slack_lt n m cs : (forall c, In c cs -> dot n c = 1 -> dot m c = 1) -> (exists c, In c cs /\ dot m c = 1 /\ dot n c <> 1) -> (slack m cs < slack n cs)%nat.
Proof.
  induction cs as [|c cs IH]; intros H (d & D & M & N); [destruct D|]. destruct D as [->|D].
  - pose proof (slack_le n m cs (fun e E => H e (or_intror E))) as K. unfold slack in *. cbn. destruct (Reqb_spec (dot n d) 1); [contradiction|]. destruct (Reqb_spec (dot m d) 1); [cbn; Lia.lia|contradiction].
  - specialize (IH (fun e E => H e (or_intror E)) (ex_intro _ d (conj D (conj M N)))). specialize (H c (or_introl eq_refl)). unfold slack in *. cbn.
    destruct (Reqb_spec (dot n c) 1), (Reqb_spec (dot m c) 1); cbn; Lia.lia || tauto.
Qed.
(** Move from [n] along [w] until a constraint becomes tight. *)
Lemma first_hit n w cs : (forall c, In c cs -> 1 <= dot n c) -> (exists c, In c cs /\ dot w c < 0) ->
  exists k c0, 0 <= k /\ In c0 cs /\ dot w c0 < 0 /\ dot n c0 + k * dot w c0 = 1 /\ forall c, In c cs -> 1 <= dot n c + k * dot w c.
Proof.
  intros H (c & C & W). induction cs as [|d cs IH]; [destruct C|].
  assert (A : (exists c, In c cs /\ dot w c < 0) \/ forall c, In c cs -> 0 <= dot w c).
  { destruct (classic (exists c, In c cs /\ dot w c < 0)); [now left|right]. intros f F. apply Rnot_lt_le. intros G. apply H0. now exists f. }
  pose proof (H d (or_introl eq_refl)) as Hd.
  assert (HC : forall c, In c cs -> 1 <= dot n c) by (intros f F; apply H; now right).
  destruct A as [(f & F & G)|A].
  - assert (X : exists k c0, 0 <= k /\ In c0 cs /\ dot w c0 < 0 /\ dot n c0 + k * dot w c0 = 1 /\ forall c, In c cs -> 1 <= dot n c + k * dot w c).
    { clear IH C. revert HC F. clear H. revert f G. induction cs as [|a cs IH2]; intros f G HC F; [destruct F|].
      destruct (classic (exists c, In c cs /\ dot w c < 0)) as [(g & G1 & G2)|NG].
      - destruct (IH2 g G2 (fun c C => HC c (or_intror C)) G1) as (k & c0 & K & I0 & N0 & E0 & B0).
        destruct (Rle_dec 1 (dot n a + k * dot w a)) as [Y|Y].
        + exists k, c0. split; [easy|]. split; [now right|]. split; [easy|]. split; [easy|]. intros b [->|B]; [easy|now apply B0].
        + assert (Wa : dot w a < 0) by (pose proof (HC a (or_introl eq_refl)); apply Rnot_le_lt; intros Q; apply Y; nra).
          exists ((dot n a - 1) / - dot w a), a. pose proof (HC a (or_introl eq_refl)) as Ha.
          assert (K2 : 0 <= (dot n a - 1) / - dot w a) by (apply Rmult_le_pos; [lra|left; apply Rinv_0_lt_compat; lra]).
          assert (KK : (dot n a - 1) / - dot w a < k). { apply Rmult_lt_reg_r with (- dot w a); [lra|]. replace ((dot n a - 1) / - dot w a * - dot w a) with (dot n a - 1) by (field; lra). lra. }
          split; [easy|]. split; [now left|]. split; [easy|]. split; [field; lra|]. intros b [->|B]; [right; field; lra|].
          specialize (B0 b B). specialize (HC b (or_intror B)). destruct (Rle_dec 0 (dot w b)); [nra|nra].
      - assert (f = a) as ->. { destruct F as [->|F]; [easy|exfalso; apply NG; now exists f]. }
        pose proof (HC a (or_introl eq_refl)) as Ha. exists ((dot n a - 1) / - dot w a), a.
        assert (K2 : 0 <= (dot n a - 1) / - dot w a) by (apply Rmult_le_pos; [lra|left; apply Rinv_0_lt_compat; lra]).
        split; [easy|]. split; [now left|]. split; [easy|]. split; [field; lra|]. intros b [->|B]; [right; field; lra|].
        specialize (HC b (or_intror B)). assert (0 <= dot w b) by (apply Rnot_lt_le; intros Q; apply NG; now exists b). nra. }
    destruct X as (k & c0 & K & I0 & N0 & E0 & B0).
    destruct (Rle_dec 1 (dot n d + k * dot w d)) as [Y|Y].
    + exists k, c0. split; [easy|]. split; [now right|]. split; [easy|]. split; [easy|]. intros b [->|B]; [easy|now apply B0].
    + assert (Wa : dot w d < 0) by (apply Rnot_le_lt; intros Q; apply Y; nra). exists ((dot n d - 1) / - dot w d), d.
      assert (K2 : 0 <= (dot n d - 1) / - dot w d) by (apply Rmult_le_pos; [lra|left; apply Rinv_0_lt_compat; lra]).
      assert (KK : (dot n d - 1) / - dot w d < k). { apply Rmult_lt_reg_r with (- dot w d); [lra|]. replace ((dot n d - 1) / - dot w d * - dot w d) with (dot n d - 1) by (field; lra). lra. }
      split; [easy|]. split; [now left|]. split; [easy|]. split; [field; lra|]. intros b [->|B]; [right; field; lra|]. specialize (B0 b B). specialize (HC b B). destruct (Rle_dec 0 (dot w b)); nra.
  - assert (c = d) as -> by (destruct C as [->|C]; [easy|specialize (A c C); lra]).
    exists ((dot n d - 1) / - dot w d), d. assert (K2 : 0 <= (dot n d - 1) / - dot w d) by (apply Rmult_le_pos; [lra|left; apply Rinv_0_lt_compat; lra]).
    split; [easy|]. split; [now left|]. split; [easy|]. split; [field; lra|]. intros b [->|B]; [right; field; lra|]. specialize (HC b B). specialize (A b B). nra.
Qed.
(** [l] is a direction that must not be used: moves are orthogonal to it. *)
Definition span_with (l : pt) (P : pt -> Prop) := forall w, dot w l = 0 -> (forall c, P c -> dot w c = 0) -> w = origin.
Lemma tight l cs : span_with l (fun c => In c cs) -> forall n, dot n l = 0 -> (forall c, In c cs -> 1 <= dot n c) ->
  exists m, dot m l = 0 /\ (forall c, In c cs -> 1 <= dot m c) /\ span_with l (fun c => In c cs /\ dot m c = 1).
Proof.
  intros S n. enough (G : forall k n, (slack n cs <= k)%nat -> dot n l = 0 -> (forall c, In c cs -> 1 <= dot n c) -> exists m, dot m l = 0 /\ (forall c, In c cs -> 1 <= dot m c) /\ span_with l (fun c => In c cs /\ dot m c = 1))
    by (apply (G (slack n cs)); apply le_n). clear n.
  induction k as [|k IH]; intros n K NL H.
  - exists n. split; [easy|]. split; [easy|]. intros w WL W. apply S; [easy|]. intros c C. apply W. split; [easy|].
    destruct (Req_dec (dot n c) 1) as [Q|Q]; [easy|exfalso]. assert (Z : In c (filter (fun c => negb (Reqb (dot n c) 1)) cs)) by (apply filter_In; split; [easy|]; destruct (Reqb_spec (dot n c) 1); easy).
    unfold slack in K. destruct (filter (fun c => negb (Reqb (dot n c) 1)) cs); [destruct Z|cbn in K; Lia.lia].
  - destruct (classic (span_with l (fun c => In c cs /\ dot n c = 1))) as [Y|Y]; [now exists n|].
    apply not_all_ex_not in Y. destruct Y as [w Y]. apply imply_to_and in Y. destruct Y as [WL Y]. apply imply_to_and in Y. destruct Y as [W NZ].
    assert (X : exists v, dot v l = 0 /\ (forall c, In c cs /\ dot n c = 1 -> dot v c = 0) /\ exists c, In c cs /\ dot v c < 0).
    { assert (E : exists c, In c cs /\ dot w c <> 0).
      { apply NNPP. intros Q. apply NZ, S; [easy|]. intros c C. apply NNPP. intros D. apply Q. now exists c. }
      destruct E as (c & C & D). destruct (Rlt_dec (dot w c) 0) as [L|L]; [exists w; split; [easy|]; split; [easy|now exists c]|].
      exists (scale (-1) w). split; [rewrite dot_scale_l, WL; lra|]. split; [intros d E; rewrite dot_scale_l, (W d E); lra|]. exists c. split; [easy|]. rewrite dot_scale_l. lra. }
    destruct X as (v & VL & V & C). destruct (first_hit n v cs H C) as (t & c0 & T & I0 & N0 & E0 & B0).
    apply (IH (plus n (scale t v))).
    + assert (L : (slack (plus n (scale t v)) cs < slack n cs)%nat); [|Lia.lia]. apply slack_lt.
      * intros c I Q. rewrite dot_plus_l, dot_scale_l, (V c (conj I Q)). lra.
      * exists c0. split; [easy|]. split; [now rewrite dot_plus_l, dot_scale_l|]. intros Q. specialize (V c0 (conj I0 Q)). lra.
    + rewrite dot_plus_l, dot_scale_l, NL, VL. lra.
    + intros c I. rewrite dot_plus_l, dot_scale_l. now apply B0.
Qed.

Definition diffs (A B : list pt) : list pt := flat_map (fun a => map (fun b => minus b a) B) A.
Lemma diffs_in A B v : In v (diffs A B) <-> exists a b, In a A /\ In b B /\ v = minus b a.
Proof.
  unfold diffs. rewrite in_flat_map. split.
  - intros (a & I & Q). apply in_map_iff in Q. destruct Q as (b & <- & J). now exists a, b.
  - intros (a & b & I & J & ->). exists a. split; [easy|]. apply in_map_iff. now exists b.
Qed.
Lemma pos_diffs (SA SB : pt -> Prop) A B v : convex_set SA -> convex_set SB -> (forall a, In a A -> SA a) -> (forall b, In b B -> SB b) ->
  pos (diffs A B) v -> exists k a b, 0 < k /\ SA a /\ SB b /\ v = scale k (minus b a).
Proof.
  intros CA CB HA HB. induction 1 as [c I|v1 v2 _ (k1 & a1 & b1 & K1 & A1 & B1 & ->) _ (k2 & a2 & b2 & K2 & A2 & B2 & ->)|k v K _ (k1 & a1 & b1 & K1 & A1 & B1 & ->)].
  - apply diffs_in in I. destruct I as (a & b & I & J & ->). exists 1, a, b. split; [lra|]. split; [auto|]. split; [auto|]. apply vec_ext; gunf; lra.
  - set (l := k2 / (k1 + k2)). assert (L : 0 <= l <= 1).
    { unfold l. split; [apply Rmult_le_pos; [lra|left; apply Rinv_0_lt_compat; lra]|]. apply Rmult_le_reg_r with (k1 + k2); [lra|]. unfold Rdiv. rewrite Rmult_assoc, Rinv_l by lra. lra. }
    exists (k1 + k2), (plus a1 (scale l (minus a2 a1))), (plus b1 (scale l (minus b2 b1))). split; [lra|]. split; [now apply CA|]. split; [now apply CB|].
    unfold l. apply vec_ext; gunf; field; lra.
  - exists (k * k1), a1, b1. split; [nra|]. split; [easy|]. split; [easy|]. apply vec_ext; gunf; lra.
Qed.
(** Strictly separated with a direction [n] on which the touched corners of both sets leave no freedom: whatever is orthogonal to all differences of
    touched corners is parallel to [n]. *)
Definition separated (A B : list pt) (n : pt) (al be : R) : Prop :=
  (forall a, In a A -> dot n a <= al) /\ (forall b, In b B -> be <= dot n b) /\ al < be.
Definition rigid (l : pt) (A B : list pt) (n : pt) (al be : R) : Prop :=
  forall w, dot w l = 0 -> (forall a a', In a A -> In a' A -> dot n a = al -> dot n a' = al -> dot w a = dot w a') ->
    (forall b b', In b B -> In b' B -> dot n b = be -> dot n b' = be -> dot w b = dot w b') -> exists k, w = scale k n.
Lemma dot_origin_r n : dot n origin = 0. Proof. unfold origin; gunf; cbn; ring. Qed.
Theorem sat_axis (l : pt) (SA SB : pt -> Prop) A B : convex_set SA -> convex_set SB -> (forall a, In a A -> SA a) -> (forall b, In b B -> SB b) ->
  A <> [] -> B <> [] -> (forall c, In c (diffs A B) -> dot l c = 0) -> span_with l (fun c => In c (diffs A B)) ->
  (exists p, SA p /\ SB p) \/ exists n al be, dot n l = 0 /\ separated A B n al be /\ rigid l A B n al be.
Proof.
  intros CA CB HA HB NA NB OL SP. destruct (gordan (diffs A B)) as [P|(n & N)].
  - left. destruct (pos_diffs SA SB A B _ CA CB HA HB P) as (k & a & b & K & I & J & E). exists a. split; [easy|]. replace a with b; [easy|].
    apply vec_ext; [apply (f_equal vx) in E|apply (f_equal vy) in E|apply (f_equal vz) in E]; gunf; unfold origin in E; cbn in E; nra.
  - right.
    assert (M : exists d, 0 < d /\ forall c, In c (diffs A B) -> d <= dot n c).
    { clear SP OL. induction (diffs A B) as [|c cs IH]; [exists 1; split; [lra|intros ? []]|]. destruct IH as (d & D & Q); [intros c0 I; apply N; now right|].
      exists (Rmin d (dot n c)). split; [apply Rmin_glb_lt; [easy|apply N; now left]|]. intros f [->|F]; [apply Rmin_r|]. eapply Rle_trans; [apply Rmin_l|now apply Q]. }
    destruct M as (d & D & Q).
    assert (X : exists n1, dot n1 l = 0 /\ forall c, In c (diffs A B) -> dot n1 c = dot n c).
    { destruct (Req_dec (dot l l) 0) as [Z|Z].
      - apply dot_zero in Z. exists n. split; [rewrite Z; apply dot_origin_r|easy].
      - exists (minus n (scale (dot n l / dot l l) l)). split; [rewrite dot_minus_l, dot_scale_l; field; easy|]. intros c C. rewrite dot_minus_l, dot_scale_l, (OL c C). ring. }
    destruct X as (n1 & N1 & X).
    destruct (tight l _ SP (scale (1 / d) n1)) as (m & ML & M & S).
    { rewrite dot_scale_l, N1. ring. }
    { intros c C. rewrite dot_scale_l, (X c C). specialize (Q c C). apply Rmult_le_reg_l with d; [easy|]. replace (d * (1 / d * dot n c)) with (dot n c) by (field; lra). lra. }
    assert (T : exists c, In c (diffs A B) /\ dot m c = 1).
    { apply NNPP. intros Y. assert (E : m = origin) by (apply S; [easy|]; intros c C; exfalso; apply Y; now exists c).
      destruct A as [|a A]; [easy|]. destruct B as [|b B]; [easy|]. specialize (M (minus b a)). rewrite E in M. unfold origin in M. 
      assert (1 <= dot (V3 0 0 0) (minus b a)) by (apply M, diffs_in; exists a, b; split; [now left|split; [now left|easy]]). gunf; cbn in *; lra. }
    destruct T as (c & C & E). apply diffs_in in C. destruct C as (a0 & b0 & I0 & J0 & ->). rewrite dot_minus_r in E.
    assert (MM : forall a b, In a A -> In b B -> 1 <= dot m b - dot m a) by (intros a b I J; rewrite <- dot_minus_r; apply M, diffs_in; now exists a, b).
    exists m, (dot m a0), (dot m b0). split; [easy|]. split.
    + split; [intros a I; specialize (MM a b0 I J0); lra|]. split; [intros b J; specialize (MM a0 b I0 J); lra|lra].
    + intros w WL WA WB. exists (dot w b0 - dot w a0). set (k := dot w b0 - dot w a0). assert (Z : minus w (scale k m) = origin).
      { apply S; [rewrite dot_minus_l, dot_scale_l, WL, ML; ring|]. intros c [C T]. apply diffs_in in C. destruct C as (a & b & I & J & ->). rewrite dot_minus_r in T. rewrite dot_minus_l, dot_scale_l, !dot_minus_r.
        pose proof (MM a b0 I J0). pose proof (MM a0 b I0 J). assert (dot m a = dot m a0) by lra. assert (dot m b = dot m b0) by lra.
        rewrite (WA a a0 I I0) by lra. rewrite (WB b b0 J J0) by lra. unfold k. nra. }
      apply vec_ext; [apply (f_equal vx) in Z|apply (f_equal vy) in Z|apply (f_equal vz) in Z]; gunf; unfold origin in Z; cbn in Z; lra.
Qed.

(** The touched corners of a polytope: a face whose normal is listed, an edge whose direction is listed, or one corner. *)
Definition touched (A : list pt) (n : pt) (al : R) (a : pt) : Prop := In a A /\ dot n a = al.
Definition one_corner (A : list pt) n al := forall a a', touched A n al a -> touched A n al a' -> a = a'.
Definition parallel (f n : pt) := f <> origin /\ exists k, k <> 0 /\ f = scale k n.
Definition axes_ok (A F E : list pt) : Prop := forall n al, n <> origin -> (forall a, In a A -> dot n a <= al) ->
  (exists f, In f F /\ parallel f n) \/
  (exists e, In e E /\ e <> origin /\ dot n e = 0 /\ forall a a', touched A n al a -> touched A n al a' -> exists k, minus a' a = scale k e) \/
  one_corner A n al.
(** The same for a set in a plane with normal [l] and directions in that plane. *)
Definition flat_ok (l : pt) (A F : list pt) : Prop := forall n al, n <> origin -> dot n l = 0 -> (forall a, In a A -> dot n a <= al) ->
  (exists f, In f F /\ parallel f n) \/ one_corner A n al.
Definition crosses (E E' : list pt) : list pt := flat_map (fun e => map (fun e' => cross e e') E') E.
Lemma crosses_in E E' v : In v (crosses E E') <-> exists e e', In e E /\ In e' E' /\ v = cross e e'.
Proof.
  unfold crosses. rewrite in_flat_map. split.
  - intros (e & I & Q). apply in_map_iff in Q. destruct Q as (b & <- & J). now exists e, b.
  - intros (a & b & I & J & ->). exists a. split; [easy|]. apply in_map_iff. now exists b.
Qed.
(** A direction separates strictly. *)
Definition gap (m : pt) (A B : list pt) : Prop := forall a b, In a A -> In b B -> dot m a < dot m b.
Definition gap2 (m : pt) (A B : list pt) : Prop := gap m A B \/ gap m B A.
Lemma gap2_parallel A B n al be f : separated A B n al be -> parallel f n -> gap2 f A B.
Proof.
  intros (L & U & D) (_ & k & K & ->). destruct (Rlt_dec 0 k).
  - left. intros a b I J. rewrite !dot_scale_l. specialize (L a I). specialize (U b J). nra.
  - right. intros a b I J. rewrite !dot_scale_l. specialize (L b J). specialize (U a I). nra.
Qed.
Lemma dcl a b : dot (cross a b) a = 0. Proof. unfold cross; gunf; ring. Qed.
Lemma dcr a b : dot (cross a b) b = 0. Proof. unfold cross; gunf; ring. Qed.
(** Two vectors orthogonal to [e], one of which is not parallel to [n]. *)
Lemma orth_pair (e n : pt) : e <> origin -> exists w, dot w e = 0 /\ forall k, w <> scale k n.
Proof.
  intros NE. destruct (classic (exists k, n = scale k e)) as [(k & ->)|NP].
  - destruct e as [x y z]. destruct (Req_dec x 0) as [X|X].
    + subst. destruct (Req_dec y 0) as [Y|Y].
      * subst. exists (V3 1 0 0). split; [gunf; cbn; ring|]. intros j H. apply (f_equal vx) in H. gunf. cbn in H. lra.
      * exists (V3 1 0 0). split; [gunf; cbn; ring|]. intros j H. apply (f_equal vx) in H. gunf. cbn in H. lra.
    + exists (V3 (- y) x 0). split; [gunf; cbn; ring|]. intros j H. pose proof (f_equal vx H) as H1. pose proof (f_equal vy H) as H2. gunf. cbn in H1, H2.
      assert (x * x + y * y = 0) by (replace (x * x) with (x * (j * (k * y))) by (rewrite <- H2; ring); replace (y * y) with (- (- y) * y) by ring; rewrite H1; ring). nra.
  - exists (cross e n). split; [apply dcl|]. intros j H. apply NP.
    assert (Z : dot (cross e n) (cross e n) = 0) by (rewrite H at 2; rewrite dot_scale_r, dcr; ring).
    rewrite cross_sq in Z. assert (EE : dot e e <> 0) by (intros Q; now apply NE, dot_zero).
    exists (dot e n / dot e e). 
    assert (M : minus n (scale (dot e n / dot e e) e) = origin).
    { apply dot_zero. rewrite dot_minus_l, !dot_minus_r, !dot_scale_l, !dot_scale_r, (dot_comm n e). apply Rmult_eq_reg_l with (dot e e); [|easy]. rewrite Rmult_0_r.
      transitivity (dot e e * dot n n - dot e n * dot e n); [field; easy|]. nra. }
    apply vec_ext; [apply (f_equal vx) in M|apply (f_equal vy) in M|apply (f_equal vz) in M]; gunf; unfold origin in M; cbn in M; lra.
Qed.
Lemma orth_same (e f w : pt) : e <> origin -> cross e f = origin -> dot w e = 0 -> dot w f = 0.
Proof.
  intros NE C W. assert (EE : dot e e <> 0) by (intros Q; now apply NE, dot_zero).
  assert (K : dot e e * dot w f = dot e f * dot w e).
  { assert (Z : dot (cross e f) (cross e w) = 0) by (rewrite C; unfold origin; gunf; cbn; ring). 
    assert (dot (cross e f) (cross e w) = dot e e * dot f w - dot e w * dot f e) by (unfold cross; gunf; cbn; ring). rewrite (dot_comm w f), (dot_comm w e), (dot_comm e f). lra. }
  rewrite W in K. assert (dot e e * dot w f = 0) by lra. apply Rmult_integral in H. tauto.
Qed.
Lemma scale_nz k n : scale k n <> origin -> k <> 0.
Proof. intros H E. apply H. subst. apply vec_ext; unfold origin; gunf; cbn; ring. Qed.
(** The separating axis theorem: either a common point, or a strict gap along a listed face normal or the cross product of listed edge directions. *)
Theorem sat_general (SA SB : pt -> Prop) A B FA EA FB EB : convex_set SA -> convex_set SB -> (forall a, In a A -> SA a) -> (forall b, In b B -> SB b) ->
  A <> [] -> B <> [] -> axes_ok A FA EA -> axes_ok B FB EB -> span_with origin (fun c => In c (diffs A B)) ->
  (exists p, SA p /\ SB p) \/ exists m, (In m FA \/ In m FB \/ In m (crosses EA EB)) /\ gap2 m A B.
Proof.
  intros CA CB HA HB NA NB OA OB SP.
  destruct (sat_axis origin SA SB A B CA CB HA HB NA NB) as [P|(n & al & be & _ & SEP & RIG)]; [|exact SP|now left|right].
  { intros c _. rewrite dot_comm. apply dot_origin_r. }
  assert (NZ : n <> origin).
  { intros ->. destruct SEP as (L & U & D). destruct A as [|a A]; [easy|]. destruct B as [|b B]; [easy|]. specialize (L a (or_introl eq_refl)). specialize (U b (or_introl eq_refl)).
    rewrite dot_comm, dot_origin_r in L, U. lra. }
  assert (RIG' : forall w, (forall a a', touched A n al a -> touched A n al a' -> dot w a = dot w a') -> (forall b b', touched B n be b -> touched B n be b' -> dot w b = dot w b') -> exists k, w = scale k n).
  { intros w WA WB. apply RIG; [apply dot_origin_r| |]; intros; [apply WA|apply WB]; now split. }
  pose proof SEP as (L & U & D).
  assert (NZ' : scale (-1) n <> origin). { intros Q. apply NZ. apply vec_ext; [apply (f_equal vx) in Q|apply (f_equal vy) in Q|apply (f_equal vz) in Q]; gunf; unfold origin in *; cbn in *; lra. }
  assert (TB : forall b, touched B n be b <-> touched B (scale (-1) n) (- be) b) by (intros b; unfold touched; rewrite dot_scale_l; split; intros [I J]; split; try easy; lra).
  destruct (OA n al NZ L) as [(f & F & PF)|HAe]; [exists f; split; [now left|exact (gap2_parallel _ _ _ _ _ _ SEP PF)]|].
  destruct (OB (scale (-1) n) (- be) NZ') as [(f & F & PF)|HBe].
  { intros b I. rewrite dot_scale_l. specialize (U b I). lra. }
  { exists f. split; [now right; left|]. apply (gap2_parallel _ _ _ _ _ _ SEP). destruct PF as (FN & k & K & ->). split; [easy|]. exists (- k). split; [lra|]. apply vec_ext; gunf; ring. }
  assert (EDGE : forall e w a a' k, minus a' a = scale k e -> dot w e = 0 -> dot w a = dot w a').
  { intros e w a a' k E W. assert (Z : dot w (minus a' a) = 0) by (rewrite E, dot_scale_r, W; ring). rewrite dot_minus_r in Z. lra. }
  destruct HAe as [(e & IE & NE & OE & TE)|OCA], HBe as [(f & IF & NF & OF & TF)|OCB].
  - destruct (classic (cross e f = origin)) as [CZ|CN].
    + exfalso. destruct (orth_pair e n NE) as (w & W & NP). destruct (RIG' w) as (k & K); [| |now apply (NP k)].
      * intros a a' TA TA'. destruct (TE a a' TA TA') as (k & K). now apply (EDGE e w a a' k).
      * intros b b' T1 T2. destruct (TF b b') as (k & K); [now apply TB|now apply TB|]. apply (EDGE f w b b' k); [easy|]. now apply (orth_same e f).
    + destruct (RIG' (cross e f)) as (k & K).
      * intros a a' TA TA'. destruct (TE a a' TA TA') as (k & K). apply (EDGE e _ a a' k); [easy|]. apply dcl.
      * intros b b' T1 T2. destruct (TF b b') as (k & K); [now apply TB|now apply TB|]. apply (EDGE f _ b b' k); [easy|]. apply dcr.
      * exists (cross e f). split; [right; right; apply crosses_in; now exists e, f|]. apply (gap2_parallel _ _ _ _ _ _ SEP). split; [easy|]. exists k. split; [|easy]. rewrite K in CN. now apply scale_nz in CN.
  - exfalso. destruct (orth_pair e n NE) as (w & W & NP). destruct (RIG' w) as (k & K); [| |now apply (NP k)].
    + intros a a' TA TA'. destruct (TE a a' TA TA') as (k & K). now apply (EDGE e w a a' k).
    + intros b b' T1 T2. f_equal. apply OCB; now apply TB.
  - exfalso. destruct (orth_pair f n NF) as (w & W & NP). destruct (RIG' w) as (k & K); [| |now apply (NP k)].
    + intros a a' TA TA'. f_equal. now apply OCA.
    + intros b b' T1 T2. destruct (TF b b') as (k & K); [now apply TB|now apply TB|]. now apply (EDGE f w b b' k).
  - exfalso. destruct (orth_pair n n NZ) as (w & W & NP). destruct (RIG' w) as (k & K); [| |now apply (NP k)].
    + intros a a' TA TA'. f_equal. now apply OCA.
    + intros b b' T1 T2. f_equal. apply OCB; now apply TB.
Qed.
(** Both sets in one plane. *)
Theorem sat_flat (l : pt) (SA SB : pt -> Prop) A B FA FB : convex_set SA -> convex_set SB -> (forall a, In a A -> SA a) -> (forall b, In b B -> SB b) ->
  A <> [] -> B <> [] -> l <> origin -> (forall c, In c (diffs A B) -> dot l c = 0) -> flat_ok l A FA -> flat_ok l B FB -> span_with l (fun c => In c (diffs A B)) ->
  (exists p, SA p /\ SB p) \/ exists m, (In m FA \/ In m FB) /\ gap2 m A B.
Proof.
  intros CA CB HA HB NA NB NL OL OA OB SP.
  destruct (sat_axis l SA SB A B CA CB HA HB NA NB OL SP) as [P|(n & al & be & N0 & SEP & RIG)]; [now left|right].
  assert (NZ : n <> origin).
  { intros ->. destruct SEP as (L & U & D). destruct A as [|a A]; [easy|]. destruct B as [|b B]; [easy|]. specialize (L a (or_introl eq_refl)). specialize (U b (or_introl eq_refl)).
    rewrite dot_comm, dot_origin_r in L, U. lra. }
  pose proof SEP as (L & U & D).
  assert (NZ' : scale (-1) n <> origin). { intros Q. apply NZ. apply vec_ext; [apply (f_equal vx) in Q|apply (f_equal vy) in Q|apply (f_equal vz) in Q]; gunf; unfold origin in *; cbn in *; lra. }
  assert (TB : forall b, touched B n be b <-> touched B (scale (-1) n) (- be) b) by (intros b; unfold touched; rewrite dot_scale_l; split; intros [I J]; split; try easy; lra).
  destruct (OA n al NZ N0 L) as [(f & F & PF)|OCA]; [exists f; split; [now left|exact (gap2_parallel _ _ _ _ _ _ SEP PF)]|].
  destruct (OB (scale (-1) n) (- be) NZ') as [(f & F & PF)|OCB].
  { rewrite dot_scale_l, N0. ring. }
  { intros b I. rewrite dot_scale_l. specialize (U b I). lra. }
  { exists f. split; [now right|]. apply (gap2_parallel _ _ _ _ _ _ SEP). destruct PF as (FN & k & K & ->). split; [easy|]. exists (- k). split; [lra|]. apply vec_ext; gunf; ring. }
  exfalso. destruct (RIG (cross n l)) as (k & K).
  - apply dcr.
  - intros a a' I J T T'. f_equal. now apply OCA.
  - intros b b' I J T T'. f_equal. apply OCB; now apply TB.
  - assert (Z : dot (cross n l) (cross n l) = 0) by (rewrite K at 2; rewrite dot_scale_r, dcl; ring). rewrite cross_sq, N0 in Z.
    destruct (dot_pos n) as [P1|P1]; [|symmetry in P1; now apply NZ, dot_zero]. destruct (dot_pos l) as [P2|P2]; [|symmetry in P2; now apply NL, dot_zero]. nra.
Qed.

(** Parallelepipeds. *)
Definition sg (b : bool) : R := if b then 1 else -1.
Definition pcorner (c u1 u2 u3 : pt) (h1 h2 h3 : R) (b1 b2 b3 : bool) : pt := plus c (plus (scale (sg b1 * h1) u1) (plus (scale (sg b2 * h2) u2) (scale (sg b3 * h3) u3))).
Definition pcorners (c u1 u2 u3 : pt) (h1 h2 h3 : R) : list pt :=
  flat_map (fun b1 => flat_map (fun b2 => map (fun b3 => pcorner c u1 u2 u3 h1 h2 h3 b1 b2 b3) [false; true]) [false; true]) [false; true].
Lemma pcorners_in c u1 u2 u3 h1 h2 h3 a : In a (pcorners c u1 u2 u3 h1 h2 h3) <-> exists b1 b2 b3, a = pcorner c u1 u2 u3 h1 h2 h3 b1 b2 b3.
Proof.
  unfold pcorners. cbn [flat_map map app]. split.
  - intros H. repeat (destruct H as [<-|H]; [eexists _, _, _; reflexivity|]). destruct H.
  - intros (b1 & b2 & b3 & ->). destruct b1, b2, b3; cbn [In]; tauto.
Qed.
Lemma pcorner_dot n c u1 u2 u3 h1 h2 h3 b1 b2 b3 : dot n (pcorner c u1 u2 u3 h1 h2 h3 b1 b2 b3) = dot n c + sg b1 * (h1 * dot n u1) + sg b2 * (h2 * dot n u2) + sg b3 * (h3 * dot n u3).
Proof. unfold pcorner. rewrite !dot_plus_r, !dot_scale_r. ring. Qed.
Definition independent (u1 u2 u3 : pt) := forall w, dot w u1 = 0 -> dot w u2 = 0 -> dot w u3 = 0 -> w = origin.
(** Vectors orthogonal to the same two of three independent vectors are parallel. *)
Lemma two_orth u1 u2 u3 f n : independent u1 u2 u3 -> f <> origin -> dot f u1 = 0 -> dot f u2 = 0 -> dot n u1 = 0 -> dot n u2 = 0 -> n <> origin -> parallel f n.
Proof.
  intros IND NF F1 F2 N1 N2 NN. split; [easy|]. assert (N3 : dot n u3 <> 0) by (intros Q; now apply NN, IND). assert (F3 : dot f u3 <> 0) by (intros Q; now apply NF, IND).
  exists (dot f u3 / dot n u3). split; [apply Rmult_integral_contrapositive_currified; [easy|now apply Rinv_neq_0_compat]|].
  assert (Z : minus f (scale (dot f u3 / dot n u3) n) = origin) by (apply IND; rewrite dot_minus_l, dot_scale_l; [rewrite F1, N1; ring|rewrite F2, N2; ring|field; easy]).
  apply vec_ext; [apply (f_equal vx) in Z|apply (f_equal vy) in Z|apply (f_equal vz) in Z]; gunf; unfold origin in Z; cbn in Z; lra.
Qed.
Lemma independent_rot u1 u2 u3 : independent u1 u2 u3 -> independent u2 u3 u1. Proof. intros H w A B C. now apply H. Qed.
Lemma independent_nz u1 u2 u3 : independent u1 u2 u3 -> u1 <> origin /\ u2 <> origin /\ u3 <> origin.
Proof.
  enough (G : forall u1 u2 u3, independent u1 u2 u3 -> u1 <> origin) by (intros H; repeat split; [exact (G _ _ _ H)|exact (G _ _ _ (independent_rot _ _ _ H))|exact (G _ _ _ (independent_rot _ _ _ (independent_rot _ _ _ H)))]).
  clear. intros u1 u2 u3 H ->. destruct (classic (cross u2 u3 = origin)) as [Z|Z].
  - destruct (classic (u2 = origin)) as [->|N2].
    + destruct (classic (u3 = origin)) as [->|N3].
      * assert (E : V3 1 0 0 = origin) by (apply H; apply dot_origin_r). apply (f_equal vx) in E. cbn in E. lra.
      * destruct (orth_pair u3 u3 N3) as (w & W & NP). apply (NP 0). rewrite (H w (dot_origin_r w) (dot_origin_r w) W). apply vec_ext; unfold origin; gunf; cbn; ring.
    + destruct (orth_pair u2 u2 N2) as (w & W & NP). apply (NP 0). rewrite (H w (dot_origin_r w) W (orth_same u2 u3 w N2 Z W)). apply vec_ext; unfold origin; gunf; cbn; ring.
  - apply Z, H; [apply dot_origin_r|apply dcl|apply dcr].
Qed.
Lemma par_axes c u1 u2 u3 h1 h2 h3 f1 f2 f3 : 0 < h1 -> 0 < h2 -> 0 < h3 -> independent u1 u2 u3 ->
  f1 <> origin -> f2 <> origin -> f3 <> origin -> dot f1 u2 = 0 -> dot f1 u3 = 0 -> dot f2 u1 = 0 -> dot f2 u3 = 0 -> dot f3 u1 = 0 -> dot f3 u2 = 0 ->
  axes_ok (pcorners c u1 u2 u3 h1 h2 h3) [f1; f2; f3] [u1; u2; u3].
Proof.
  intros H1 H2 H3 IND NF1 NF2 NF3 F12 F13 F21 F23 F31 F32 n al NN B. destruct (independent_nz _ _ _ IND) as (NU1 & NU2 & NU3).
  assert (X : forall b1 b2 b3, dot n c + sg b1 * (h1 * dot n u1) + sg b2 * (h2 * dot n u2) + sg b3 * (h3 * dot n u3) <= al).
  { intros b1 b2 b3. rewrite <- pcorner_dot. apply B, pcorners_in. now exists b1, b2, b3. }
  (* two touched corners agree in every coordinate in which n is not orthogonal *)
  assert (Y : forall b1 b2 b3 d1 d2 d3, touched (pcorners c u1 u2 u3 h1 h2 h3) n al (pcorner c u1 u2 u3 h1 h2 h3 b1 b2 b3) -> touched (pcorners c u1 u2 u3 h1 h2 h3) n al (pcorner c u1 u2 u3 h1 h2 h3 d1 d2 d3) ->
    (dot n u1 <> 0 -> b1 = d1) /\ (dot n u2 <> 0 -> b2 = d2) /\ (dot n u3 <> 0 -> b3 = d3)).
  { intros b1 b2 b3 d1 d2 d3 [_ T1] [_ T2]. rewrite pcorner_dot in T1, T2.
    pose proof (X (negb b1) b2 b3) as Q1. pose proof (X b1 (negb b2) b3) as Q2. pose proof (X b1 b2 (negb b3)) as Q3. pose proof (X (negb d1) d2 d3) as P1. pose proof (X d1 (negb d2) d3) as P2. pose proof (X d1 d2 (negb d3)) as P3.
    assert (forall b d h x, 0 < h -> sg (negb b) * (h * x) <= sg b * (h * x) -> sg (negb d) * (h * x) <= sg d * (h * x) -> x <> 0 -> b = d).
    { intros b d h x Hh U V NX. destruct b, d; try reflexivity; exfalso; cbn in *; apply NX; nra. }
    split; [|split]; intros NX; [apply (H _ _ h1 (dot n u1))|apply (H _ _ h2 (dot n u2))|apply (H _ _ h3 (dot n u3))]; try assumption; lra. }
  assert (TC : forall a, touched (pcorners c u1 u2 u3 h1 h2 h3) n al a -> exists b1 b2 b3, a = pcorner c u1 u2 u3 h1 h2 h3 b1 b2 b3) by (intros a [I _]; now apply pcorners_in in I).
  destruct (Req_dec (dot n u1) 0) as [Z1|Z1], (Req_dec (dot n u2) 0) as [Z2|Z2], (Req_dec (dot n u3) 0) as [Z3|Z3].
  - exfalso. now apply NN, IND.
  - left. exists f3. split; [now right; right; left|]. now apply (two_orth u1 u2 u3).
  - left. exists f2. split; [now right; left|]. apply (two_orth u3 u1 u2); try assumption. now apply independent_rot, independent_rot.
  - right; left. exists u1. split; [now left|]. split; [easy|]. split; [easy|]. intros a a' T T'. destruct (TC a T) as (b1 & b2 & b3 & ->). destruct (TC a' T') as (d1 & d2 & d3 & ->).
    destruct (Y _ _ _ _ _ _ T T') as (_ & E2 & E3). rewrite (E2 Z2), (E3 Z3). exists ((sg d1 - sg b1) * h1). unfold pcorner. apply vec_ext; gunf; ring.
  - left. exists f1. split; [now left|]. apply (two_orth u2 u3 u1); try assumption. now apply independent_rot.
  - right; left. exists u2. split; [now right; left|]. split; [easy|]. split; [easy|]. intros a a' T T'. destruct (TC a T) as (b1 & b2 & b3 & ->). destruct (TC a' T') as (d1 & d2 & d3 & ->).
    destruct (Y _ _ _ _ _ _ T T') as (E1 & _ & E3). rewrite (E1 Z1), (E3 Z3). exists ((sg d2 - sg b2) * h2). unfold pcorner. apply vec_ext; gunf; ring.
  - right; left. exists u3. split; [now right; right; left|]. split; [easy|]. split; [easy|]. intros a a' T T'. destruct (TC a T) as (b1 & b2 & b3 & ->). destruct (TC a' T') as (d1 & d2 & d3 & ->).
    destruct (Y _ _ _ _ _ _ T T') as (E1 & E2 & _). rewrite (E1 Z1), (E2 Z2). exists ((sg d3 - sg b3) * h3). unfold pcorner. apply vec_ext; gunf; ring.
  - right; right. intros a a' T T'. destruct (TC a T) as (b1 & b2 & b3 & ->). destruct (TC a' T') as (d1 & d2 & d3 & ->). destruct (Y _ _ _ _ _ _ T T') as (E1 & E2 & E3). now rewrite (E1 Z1), (E2 Z2), (E3 Z3).
Qed.
Lemma par_span c u1 u2 u3 h1 h2 h3 B : 0 < h1 -> 0 < h2 -> 0 < h3 -> independent u1 u2 u3 -> B <> [] -> span_with origin (fun v => In v (diffs (pcorners c u1 u2 u3 h1 h2 h3) B)).
Proof.
  intros H1 H2 H3 IND NB w _ W. destruct B as [|b B]; [easy|].
  assert (X : forall b1 b2 b3, dot w b = dot w c + sg b1 * (h1 * dot w u1) + sg b2 * (h2 * dot w u2) + sg b3 * (h3 * dot w u3)).
  { intros b1 b2 b3. rewrite <- pcorner_dot. assert (Z : dot w (minus b (pcorner c u1 u2 u3 h1 h2 h3 b1 b2 b3)) = 0).
    { apply W, diffs_in. exists (pcorner c u1 u2 u3 h1 h2 h3 b1 b2 b3), b. split; [apply pcorners_in; now exists b1, b2, b3|]. split; [now left|easy]. }
    rewrite dot_minus_r in Z. lra. }
  pose proof (X true true true) as T. pose proof (X false true true) as T1. pose proof (X true false true) as T2. pose proof (X true true false) as T3. cbn in *.
  apply IND; nra.
Qed.
