(** C84 continued: corners, edges, extremes and bounds. *)
From Coq Require Import Reals Psatz List Bool Permutation.
From Verif Require Import Num NumR ScalarModel ScalarProofs Vec3Model GeoTypes GeoSpec GeoLemmas Vec3Props AabbModel AabbSpec AabbProofs AabbProps AabbProps2 MatModel MatSpec MatProofs MatProofs2 LineModel LineSpec LineProofs
  RotModel RotSpec RotProofs PlaneModel PlaneSpec PlaneProps SphereSpec ObbModel ObbProps ObbProps4 Vec2Model FrustumModel FrustumSpec FrustumProps.
Import ListNotations.
Open Scope R_scope.
Ltac Zify.zify_post_hook ::= idtac.

Definition sgn (b : bool) : R := if b then 1 else -1.
Definition fdist (f : frustum R) (b : bool) : R := if b then ffar f else fnear f.
Definition corner (f : frustum R) (x y z : bool) : pt := view_point f (sgn x * half_w f (fdist f z)) (sgn y * half_h f (fdist f z)) (fdist f z).
Lemma CornerPoint_R f i : (i < 8)%nat -> Frustum_CornerPoint f i = corner f (Nat.testbit i 2) (Nat.testbit i 1) (Nat.testbit i 0).
Proof.
  intros L. unfold Frustum_CornerPoint, NearPlanePos, FarPlanePos, corner. do 8 (destruct i as [|i]; [rewrite planePos_R; cbn [Nat.testbit Nat.odd Nat.even Nat.div2 sgn fdist]; f_equal; rsimpl; ring|]). exfalso; Lia.lia.
Qed.
Lemma GetCornerPoints_R f : Frustum_GetCornerPoints f = map (fun i => corner f (Nat.testbit i 0) (Nat.testbit i 1) (Nat.testbit i 2)) (seq 0 8).
Proof.
  unfold Frustum_GetCornerPoints, persp. rewrite !Tan_R, !WorldRight_R. cbn [map seq Nat.testbit Nat.odd Nat.even Nat.div2 negb]. unfold corner, view_point, half_w, half_h. cbn [sgn fdist].
  destruct (ftype f); cbn [app]; repeat (apply f_equal2; [apply vec_ext; unfold plus, scale; vunf; rsimpl; field|]); reflexivity.
Qed.
Lemma corners_map f : map (Frustum_CornerPoint f) (seq 0 8) = map (fun i => corner f (Nat.testbit i 2) (Nat.testbit i 1) (Nat.testbit i 0)) (seq 0 8).
Proof. apply map_ext_in. intros i I. apply in_seq in I. apply CornerPoint_R. Lia.lia. Qed.
Lemma in_corners f p : In p (map (Frustum_CornerPoint f) (seq 0 8)) <-> exists x y z, p = corner f x y z.
Proof.
  rewrite corners_map. cbn [map seq Nat.testbit Nat.odd Nat.even Nat.div2 negb In]. split.
  - intros H. repeat destruct H as [<-|H]; try contradiction; eauto.
  - intros (x & y & z & ->). destruct x, y, z; tauto.
Qed.
Lemma in_corners' f p : In p (Frustum_GetCornerPoints f) <-> exists x y z, p = corner f x y z.
Proof.
  rewrite GetCornerPoints_R. cbn [map seq Nat.testbit Nat.odd Nat.even Nat.div2 negb In]. split.
  - intros H. repeat destruct H as [<-|H]; try contradiction; eauto.
  - intros (x & y & z & ->). destruct x, y, z; tauto.
Qed.
Lemma corner_in f x y z : frustum_ok f -> in_frustum f (corner f x y z).
Proof.
  intros K. unfold corner. apply in_frustum_point; [exact K|]. pose proof K as (_ & _ & _ & N & _). destruct (half_pos f (fdist f z) K) as (A & B); [destruct z; cbn; lra|]. destruct x, y, z; cbn [sgn fdist] in *; lra.
Qed.
Lemma frustum_convex f : frustum_ok f -> convex (in_frustum f).
Proof.
  intros K x y k X Y T. destruct (half_affine f K) as (a & b & _ & _ & _ & EW), (half_affine_h f K) as (c & d & _ & _ & _ & EH).
  rewrite <- (point_of_view f x K), <- (point_of_view f y K), !view_at, lerp_at, <- view_at. apply in_frustum_point; [exact K|]. unfold in_frustum in *. rewrite !EW, !EH in *.
  set (x0 := view_x f x) in *. set (x1 := view_y f x) in *. set (x2 := depth f x) in *. set (y0 := view_x f y) in *. set (y1 := view_y f y) in *. set (y2 := depth f y) in *. clearbody x0 x1 x2 y0 y1 y2. clear EW EH.
  assert (C : forall u v, 0 <= u -> 0 <= v -> 0 <= u + k * (v - u)) by (intros; nra).
  pose proof (C (x2 - fnear f) (y2 - fnear f)). pose proof (C (ffar f - x2) (ffar f - y2)). pose proof (C (a + b * x2 - x0) (a + b * y2 - y0)). pose proof (C (a + b * x2 + x0) (a + b * y2 + y0)). pose proof (C (c + d * x2 - x1) (c + d * y2 - y1)). pose proof (C (c + d * x2 + x1) (c + d * y2 + y1)).
  lra.
Qed.
(** A fraction of a positive amount. *)
Lemma div_01 a b : 0 < b -> 0 <= a <= b -> 0 <= a / b <= 1.
Proof. intros B A. pose proof (Rinv_0_lt_compat b B) as I. pose proof (Rinv_r b ltac:(lra)). unfold Rdiv. nra. Qed.
Lemma fraction x w : 0 < w -> - w <= x <= w -> exists k, 0 <= k <= 1 /\ x = - w + k * (2 * w).
Proof.
  intros W X. exists ((x + w) / (2 * w)). split; [apply div_01; lra|field; lra].
Qed.
Lemma frustum_hull f (A : pt -> Prop) p : frustum_ok f -> convex A -> (forall x y z, A (corner f x y z)) -> in_frustum f p -> A p.
Proof.
  intros K CV AC I. pose proof K as (_ & _ & _ & N & _). destruct (half_affine f K) as (a & b & _ & _ & _ & EW), (half_affine_h f K) as (c & d & _ & _ & _ & EH).
  rewrite <- (point_of_view f p K). destruct I as (Z & X & Y). set (x := view_x f p) in *. set (y := view_y f p) in *. set (z := depth f p) in *. clearbody x y z.
  destruct (half_pos f z K) as (WP & HP); [lra|]. destruct (fraction x (half_w f z) WP X) as (i & Ii & Ex). destruct (fraction y (half_h f z) HP Y) as (j & Jj & Ey).
  assert (G : exists k, 0 <= k <= 1 /\ z = fnear f + k * (ffar f - fnear f)).
  { exists ((z - fnear f) / (ffar f - fnear f)). split; [apply div_01; lra|field; lra]. }
  destruct G as (k & Kk & Ez).
  assert (Q : forall u, A (view_point f (- half_w f (fdist f u) + i * (2 * half_w f (fdist f u))) (- half_h f (fdist f u) + j * (2 * half_h f (fdist f u))) (fdist f u))).
  { intros u. assert (L : forall v, A (view_point f (- half_w f (fdist f u) + i * (2 * half_w f (fdist f u))) (sgn v * half_h f (fdist f u)) (fdist f u))).
    { intros v. pose proof (CV _ _ i (AC false v u) (AC true v u) Ii) as H. unfold corner in H. rewrite !view_at, lerp_at, <- view_at in H. cbn [sgn] in H. eapply eq_ind; [exact H|]. f_equal; ring. }
    pose proof (CV _ _ j (L false) (L true) Jj) as H. rewrite !view_at, lerp_at, <- view_at in H. cbn [sgn] in H. eapply eq_ind; [exact H|]. f_equal; ring. }
  pose proof (CV _ _ k (Q false) (Q true) Kk) as H. rewrite !view_at, lerp_at, <- view_at in H. cbn [fdist] in H. eapply eq_ind; [exact H|]. rewrite Ex, Ey, Ez, !EW, !EH. f_equal; ring.
Qed.
(** The corners: eight distinct points of the region, whose convex hull is the region; both ways of listing them agree up to order. *)
Theorem C84_corners (f : frustum R) : frustum_ok f ->
  (forall i, (i < 8)%nat -> let c := Frustum_CornerPoint f i in let d := if Nat.testbit i 0 then ffar f else fnear f in
     in_frustum f c /\ depth f c = d /\ view_x f c = (if Nat.testbit i 2 then half_w f d else - half_w f d) /\ view_y f c = (if Nat.testbit i 1 then half_h f d else - half_h f d)) /\
  (forall p, in_frustum f p <-> in_hull (map (Frustum_CornerPoint f) (seq 0 8)) p) /\
  (forall p, In p (Frustum_GetCornerPoints f) <-> exists i, (i < 8)%nat /\ p = Frustum_CornerPoint f i) /\ length (Frustum_GetCornerPoints f) = 8%nat /\ NoDup (Frustum_GetCornerPoints f) /\
  in_frustum f (Frustum_CenterPoint f).
Proof.
  intros K. pose proof K as (_ & _ & _ & N & _). split; [|split; [|split; [|split; [|split]]]].
  - intros i L c d. unfold c, d. rewrite (CornerPoint_R f i L). split; [now apply corner_in|]. unfold corner. match goal with |- depth f (view_point f ?x ?y ?z) = _ /\ _ => destruct (view_of_point f x y z K) as (-> & -> & ->) end.
    unfold fdist. destruct (Nat.testbit i 0), (Nat.testbit i 1), (Nat.testbit i 2); cbn [sgn]; repeat split; ring.
  - intros p. split.
    + intros I A CV H. apply (frustum_hull f A p K CV); [|exact I]. intros x y z. apply H, in_corners. eauto.
    + intros H. apply H; [now apply frustum_convex|]. intros v V. apply in_corners in V. destruct V as (x & y & z & ->). now apply corner_in.
  - intros p. rewrite in_corners', <- in_corners, in_map_iff. split.
    + intros (i & <- & I). exists i. apply in_seq in I. split; [Lia.lia|reflexivity].
    + intros (i & L & ->). exists i. split; [reflexivity|apply in_seq; Lia.lia].
  - rewrite GetCornerPoints_R. reflexivity.
  - rewrite GetCornerPoints_R. assert (INJ : forall x y z x' y' z', corner f x y z = corner f x' y' z' -> x = x' /\ y = y' /\ z = z').
    { intros x y z x' y' z' E. unfold corner in E. pose proof (view_of_point f (sgn x * half_w f (fdist f z)) (sgn y * half_h f (fdist f z)) (fdist f z) K) as (E0 & E1 & E2).
      pose proof (view_of_point f (sgn x' * half_w f (fdist f z')) (sgn y' * half_h f (fdist f z')) (fdist f z') K) as (F0 & F1 & F2). rewrite <- E in F0, F1, F2. rewrite E0 in F0. rewrite E1 in F1. rewrite E2 in F2.
      destruct (half_pos f (fdist f z) K) as (WP & HP); [destruct z; cbn; lra|].
      assert (z = z') by (destruct z, z'; cbn in F2; try reflexivity; lra). subst z'. split; [|split; [|reflexivity]]; [destruct x, x'|destruct y, y']; cbn [sgn] in *; try reflexivity; lra. }
    assert (IS : forall i j, (i < 8)%nat -> (j < 8)%nat -> Nat.testbit i 0 = Nat.testbit j 0 -> Nat.testbit i 1 = Nat.testbit j 1 -> Nat.testbit i 2 = Nat.testbit j 2 -> i = j).
    { intros i j. do 8 (destruct i as [|i]; [do 8 (destruct j as [|j]; [cbn; intros; try reflexivity; discriminate|]); intros; exfalso; Lia.lia|]). intros; exfalso; Lia.lia. }
    assert (ND : forall l, (forall i, In i l -> (i < 8)%nat) -> NoDup l -> NoDup (map (fun i => corner f (Nat.testbit i 0) (Nat.testbit i 1) (Nat.testbit i 2)) l)).
    { induction l as [|i l IH]; intros B D; [constructor|]. inversion D; subst. cbn [map]. constructor; [|apply IH; [intros; apply B; now right|assumption]].
      rewrite in_map_iff. intros (j & E & J). apply INJ in E. destruct E as (E0 & E1 & E2). assert (j = i); [|subst; contradiction]. apply IS; [apply B; now right|apply B; now left|assumption..]. }
    apply ND; [intros i I; apply in_seq in I; Lia.lia|apply seq_NoDup].
  - assert (E : Frustum_CenterPoint f = view_point f 0 0 ((fnear f + ffar f) / 2)) by (unfold Frustum_CenterPoint, view_point; apply vec_ext; unfold plus, scale; vunf; rsimpl; field). rewrite E. apply in_frustum_point; [exact K|]. destruct (half_pos f ((fnear f + ffar f) / 2) K); lra.
Qed.
Print Assumptions C84_corners.
(** The edges: each joins two corners differing in exactly one of the three coordinates, all such pairs occur, and every edge lies in exactly two of the face planes. *)
Theorem C84_edges (f : frustum R) : frustum_ok f ->
  (forall i, (i < 12)%nat -> exists m bit, (m < 8)%nat /\ (bit < 3)%nat /\ Nat.testbit m bit = false /\ Frustum_Edge f i = Seg (Frustum_CornerPoint f m) (Frustum_CornerPoint f (m + 2 ^ bit))) /\
  (forall m bit, (m < 8)%nat -> (bit < 3)%nat -> Nat.testbit m bit = false -> exists i, (i < 12)%nat /\ Frustum_Edge f i = Seg (Frustum_CornerPoint f m) (Frustum_CornerPoint f (m + 2 ^ bit))) /\
  (forall i, (i < 12)%nat -> exists j k, (j < 6)%nat /\ (k < 6)%nat /\ j <> k /\ forall l, (l < 6)%nat -> ((l = j \/ l = k) <-> forall p, on_segment (Frustum_Edge f i) p -> on_plane (Frustum_GetPlane f l) p)).
Proof.
  intros K. split; [|split].
  - intros i L.
    destruct i as [|i]; [exists 0%nat, 0%nat; repeat split; Lia.lia|]. destruct i as [|i]; [exists 0%nat, 1%nat; repeat split; Lia.lia|]. destruct i as [|i]; [exists 0%nat, 2%nat; repeat split; Lia.lia|].
    destruct i as [|i]; [exists 1%nat, 1%nat; repeat split; Lia.lia|]. destruct i as [|i]; [exists 1%nat, 2%nat; repeat split; Lia.lia|]. destruct i as [|i]; [exists 2%nat, 0%nat; repeat split; Lia.lia|].
    destruct i as [|i]; [exists 2%nat, 2%nat; repeat split; Lia.lia|]. destruct i as [|i]; [exists 3%nat, 2%nat; repeat split; Lia.lia|]. destruct i as [|i]; [exists 4%nat, 0%nat; repeat split; Lia.lia|].
    destruct i as [|i]; [exists 4%nat, 1%nat; repeat split; Lia.lia|]. destruct i as [|i]; [exists 5%nat, 1%nat; repeat split; Lia.lia|]. destruct i as [|i]; [exists 6%nat, 0%nat; repeat split; Lia.lia|]. exfalso; Lia.lia.
  - intros m bit M B T.
    do 8 (destruct m as [|m]; [do 3 (destruct bit as [|bit]; [try discriminate T; first [exists 0%nat; split; [Lia.lia|reflexivity]|exists 1%nat; split; [Lia.lia|reflexivity]|exists 2%nat; split; [Lia.lia|reflexivity]|exists 3%nat; split; [Lia.lia|reflexivity]|exists 4%nat; split; [Lia.lia|reflexivity]|exists 5%nat; split; [Lia.lia|reflexivity]
      |exists 6%nat; split; [Lia.lia|reflexivity]|exists 7%nat; split; [Lia.lia|reflexivity]|exists 8%nat; split; [Lia.lia|reflexivity]|exists 9%nat; split; [Lia.lia|reflexivity]|exists 10%nat; split; [Lia.lia|reflexivity]|exists 11%nat; split; [Lia.lia|reflexivity]]|]); exfalso; Lia.lia|]). exfalso; Lia.lia.
  - destruct (C84_planes f K) as (_ & _ & P0 & P1 & P2 & P3 & P4 & P5 & _). pose proof K as (_ & _ & _ & N & _).
    destruct (half_affine f K) as (a & b & _ & _ & _ & EW), (half_affine_h f K) as (c & d & _ & _ & _ & EH).
    assert (PL : forall l x y z, (l < 6)%nat -> (on_plane (Frustum_GetPlane f l) (corner f x y z) <-> match l with 0 => z = false | 1 => z = true | 2 => x = false | 3 => x = true | 4 => y = true | _ => y = false end%nat)).
    { intros l x y z L. destruct (half_pos f (fdist f z) K) as (WP & HP); [destruct z; cbn; lra|].
      destruct (view_of_point f (sgn x * half_w f (fdist f z)) (sgn y * half_h f (fdist f z)) (fdist f z) K) as (V0 & V1 & V2). fold (corner f x y z) in V0, V1, V2.
      do 6 (destruct l as [|l]; [cbn [Frustum_GetPlane]; first [rewrite P0|rewrite P1|rewrite P2|rewrite P3|rewrite P4|rewrite P5]; rewrite ?V2, ?V0, ?V1; destruct x, y, z; cbn [sgn fdist] in *; split; intros; try reflexivity; try discriminate; lra|]). exfalso; Lia.lia. }
    assert (SG : forall l s, (forall p, on_segment s p -> on_plane (Frustum_GetPlane f l) p) <-> on_plane (Frustum_GetPlane f l) (seg_a s) /\ on_plane (Frustum_GetPlane f l) (seg_b s)).
    { intros l s. split.
      - intros H. split; apply H; [exists 0|exists 1]; (split; [lra|]); apply vec_ext; unfold plus, minus, scale; cbn [vx vy vz]; ring.
      - intros (A & B) p (t & _ & ->). unfold on_plane in *. rewrite dot_plus_r, dot_scale_r, dot_minus_r. rewrite A, B. ring. }
    assert (CP : forall i, (i < 8)%nat -> Frustum_CornerPoint f i = corner f (Nat.testbit i 2) (Nat.testbit i 1) (Nat.testbit i 0)) by (intros; now apply CornerPoint_R).
    assert (G : forall i u v, (u < 8)%nat -> (v < 8)%nat -> Frustum_Edge f i = Seg (Frustum_CornerPoint f u) (Frustum_CornerPoint f v) -> forall l, (l < 6)%nat -> ((forall p, on_segment (Frustum_Edge f i) p -> on_plane (Frustum_GetPlane f l) p) <->
      match l with 0 => Nat.testbit u 0 = false /\ Nat.testbit v 0 = false | 1 => Nat.testbit u 0 = true /\ Nat.testbit v 0 = true | 2 => Nat.testbit u 2 = false /\ Nat.testbit v 2 = false | 3 => Nat.testbit u 2 = true /\ Nat.testbit v 2 = true
      | 4 => Nat.testbit u 1 = true /\ Nat.testbit v 1 = true | _ => Nat.testbit u 1 = false /\ Nat.testbit v 1 = false end%nat)).
    { intros i u v U V E l L. rewrite SG, E. cbn [seg_a seg_b]. rewrite (CP u U), (CP v V), !PL by exact L. destruct l as [|[|[|[|[|l]]]]]; reflexivity. }
    assert (FIN : forall i u v j k, (u < 8)%nat -> (v < 8)%nat -> Frustum_Edge f i = Seg (Frustum_CornerPoint f u) (Frustum_CornerPoint f v) -> (j < 6)%nat -> (k < 6)%nat -> j <> k ->
      (forall l, (l < 6)%nat -> ((l = j \/ l = k) <-> match l with 0 => Nat.testbit u 0 = false /\ Nat.testbit v 0 = false | 1 => Nat.testbit u 0 = true /\ Nat.testbit v 0 = true | 2 => Nat.testbit u 2 = false /\ Nat.testbit v 2 = false | 3 => Nat.testbit u 2 = true /\ Nat.testbit v 2 = true
      | 4 => Nat.testbit u 1 = true /\ Nat.testbit v 1 = true | _ => Nat.testbit u 1 = false /\ Nat.testbit v 1 = false end%nat)) ->
      exists j k, (j < 6)%nat /\ (k < 6)%nat /\ j <> k /\ forall l, (l < 6)%nat -> ((l = j \/ l = k) <-> forall p, on_segment (Frustum_Edge f i) p -> on_plane (Frustum_GetPlane f l) p)).
    { intros i u v j k U V E J Kk JK H. exists j, k. repeat split; try assumption; intros X; [apply (G i u v U V E l H0), H; assumption|apply H; [assumption|apply (G i u v U V E l H0); assumption]]. }
    Ltac fin u v j k F := apply (F _ u v j k); try reflexivity; try Lia.lia; intros l L; do 6 (destruct l as [|l]; [cbn; split; [intros [E|E]; try discriminate E; split; reflexivity|intros [A B]; try discriminate A; try discriminate B; Lia.lia]|]); exfalso; Lia.lia.
    intros i Li.
    destruct i as [|i]; [fin 0%nat 1%nat 2%nat 5%nat FIN|]. destruct i as [|i]; [fin 0%nat 2%nat 0%nat 2%nat FIN|]. destruct i as [|i]; [fin 0%nat 4%nat 0%nat 5%nat FIN|]. destruct i as [|i]; [fin 1%nat 3%nat 1%nat 2%nat FIN|].
    destruct i as [|i]; [fin 1%nat 5%nat 1%nat 5%nat FIN|]. destruct i as [|i]; [fin 2%nat 3%nat 2%nat 4%nat FIN|]. destruct i as [|i]; [fin 2%nat 6%nat 0%nat 4%nat FIN|]. destruct i as [|i]; [fin 3%nat 7%nat 1%nat 4%nat FIN|].
    destruct i as [|i]; [fin 4%nat 5%nat 3%nat 5%nat FIN|]. destruct i as [|i]; [fin 4%nat 6%nat 0%nat 3%nat FIN|]. destruct i as [|i]; [fin 5%nat 7%nat 1%nat 3%nat FIN|]. destruct i as [|i]; [fin 6%nat 7%nat 3%nat 4%nat FIN|]. exfalso; Lia.lia.
Qed.
Print Assumptions C84_edges.

(** ** Extremes *)
Lemma half_convex (v : pt) m : convex (fun p => dot v p <= m).
Proof. intros x y k X Y K. rewrite dot_plus_r, dot_scale_r, dot_minus_r. nra. Qed.
Lemma half_convex' (v : pt) m : convex (fun p => m <= dot v p).
Proof. intros x y k X Y K. rewrite dot_plus_r, dot_scale_r, dot_minus_r. nra. Qed.
Lemma extreme_fold (dir : pt) : forall l (c : pt), let r := fold_left (fun acc c => let d := Dot dir c in if nltb (snd acc) d then (c, d) else acc) l (c, Dot dir c) in
  In (fst r) (c :: l) /\ snd r = dot dir (fst r) /\ forall q, In q (c :: l) -> dot dir q <= snd r.
Proof.
  induction l as [|a l IH]; intros c; cbn [fold_left].
  - cbn [fst snd]. split; [now left|]. split; [reflexivity|]. intros q [<-|[]]. apply Rle_refl.
  - cbv zeta. cbn [snd]. change (nltb (Dot dir c) (Dot dir a)) with (Rltb (dot dir c) (dot dir a)). destruct (Rltb_spec (dot dir c) (dot dir a)) as [H|H].
    + destruct (IH a) as (A & B & C). split; [cbn in A |- *; tauto|]. split; [exact B|]. intros q [<-|Q]; [|now apply C]. specialize (C a (or_introl eq_refl)). lra.
    + destruct (IH c) as (A & B & C). split; [cbn in A |- *; tauto|]. split; [exact B|]. intros q [<-|[<-|Q]]; [apply C; now left| |apply C; now right]. specialize (C c (or_introl eq_refl)). lra.
Qed.
Lemma range_fold (dir : pt) : forall l lo hi, lo <= hi -> let r := fold_left (fun acc c => let d := Dot dir c in (Min (fst acc) d, Max (snd acc) d)) l (lo, hi) in
  (fst r = lo \/ exists q, In q l /\ dot dir q = fst r) /\ (snd r = hi \/ exists q, In q l /\ dot dir q = snd r) /\ fst r <= lo /\ hi <= snd r /\ forall q, In q l -> fst r <= dot dir q <= snd r.
Proof.
  induction l as [|a l IH]; intros lo hi L; cbn [fold_left].
  - cbn [fst snd]. repeat split; try (now left); try lra; contradiction.
  - cbv zeta. cbn [fst snd]. rewrite Min_R, Max_R. change (Dot dir a) with (dot dir a). pose proof (Rmin_l lo (dot dir a)). pose proof (Rmin_r lo (dot dir a)). pose proof (Rmax_l hi (dot dir a)). pose proof (Rmax_r hi (dot dir a)).
    destruct (IH (Rmin lo (dot dir a)) (Rmax hi (dot dir a)) ltac:(lra)) as (A & B & C & D & E). cbv zeta in *. change (@nmul R Num_R) with Rmult in *.
    set (r := fold_left _ _ _) in *. clearbody r. split; [|split; [|split; [|split]]]; try lra.
    + destruct A as [A|(q & Q & A)]; [|right; exists q; split; [now right|exact A]]. rewrite A. unfold Rmin. destruct Rle_dec; [now left|right; exists a; split; [now left|reflexivity]].
    + destruct B as [B|(q & Q & B)]; [|right; exists q; split; [now right|exact B]]. rewrite B. unfold Rmax. destruct Rle_dec; [right; exists a; split; [now left|reflexivity]|now left].
    + intros q [<-|Q]; [lra|]. now apply E.
Qed.
Theorem C84_extreme (f : frustum R) (dir : pt) : frustum_ok f ->
  let '(e, d) := Frustum_ExtremePoint f dir in In e (Frustum_GetCornerPoints f) /\ in_frustum f e /\ d = dot dir e /\ (forall p, in_frustum f p -> dot dir p <= d) /\
  let '(lo, hi) := Frustum_ProjectToAxis f dir in hi = d /\ forall x, lo <= x <= hi <-> exists p, in_frustum f p /\ dot dir p = x.
Proof.
  intros K. destruct (C84_corners f K) as (_ & _ & _ & L8 & _). pose proof (in_corners' f) as IC. unfold Frustum_ExtremePoint, Frustum_ProjectToAxis. destruct (Frustum_GetCornerPoints f) as [|c rest]; [discriminate L8|].
  change (fun acc c => let d := Dot dir c in if nltb (snd acc) d then (c, d) else acc) with (fun (acc : pt * R) (c : pt) => let d := Dot dir c in if nltb (snd acc) d then (c, d) else acc).
  pose proof (extreme_fold dir rest c) as E. pose proof (range_fold dir rest (Dot dir c) (Dot dir c) (Rle_refl _)) as F. cbv zeta in E, F.
  destruct (fold_left (fun acc c0 => let d := Dot dir c0 in if nltb (snd acc) d then (c0, d) else acc) rest (c, Dot dir c)) as [e d] eqn:EE.
  destruct (fold_left (fun acc c0 => let d := Dot dir c0 in (Min (fst acc) d, Max (snd acc) d)) rest (Dot dir c, Dot dir c)) as [lo hi] eqn:FF.
  cbn [fst snd] in *. change (Dot dir c) with (dot dir c) in *. destruct E as (E1 & E2 & E3). destruct F as (F1 & F2 & F3 & F4 & F5).
  assert (IN : forall q, In q (c :: rest) -> in_frustum f q) by (intros q Q; apply IC in Q; destruct Q as (x & y & z & ->); now apply corner_in).
  assert (UP : forall p, in_frustum f p -> dot dir p <= d).
  { intros p P. apply (frustum_hull f (fun p => dot dir p <= d) p K); [apply half_convex| |exact P]. intros x y z. apply E3, IC. eauto. }
  split; [exact E1|]. split; [now apply IN|]. split; [exact E2|]. split; [exact UP|].
  assert (QL : exists q, In q (c :: rest) /\ dot dir q = lo) by (destruct F1 as [ -> |(q & Q & Qe)]; [exists c; split; [now left|reflexivity]|exists q; split; [now right|exact Qe]]).
  assert (QH : exists q, In q (c :: rest) /\ dot dir q = hi) by (destruct F2 as [ -> |(q & Q & Qe)]; [exists c; split; [now left|reflexivity]|exists q; split; [now right|exact Qe]]).
  assert (BO : forall q, In q (c :: rest) -> lo <= dot dir q <= hi) by (intros q [<-|Q]; [lra|now apply F5]).
  split; [destruct QH as (q & Q & Qe); pose proof (E3 q Q); pose proof (BO e E1); lra|].
  intros x. split.
  - intros X. destruct QL as (q & Q & Ql), QH as (r & Rr & Rh). destruct (Req_dec lo hi) as [LE|LE]; [exists q; split; [now apply IN|lra]|].
    exists (plus q (scale ((x - lo) / (hi - lo)) (minus r q))). split; [apply (frustum_convex f K); [now apply IN|now apply IN|apply div_01; lra]|]. rewrite dot_plus_r, dot_scale_r, dot_minus_r, Ql, Rh. field. lra.
  - intros (p & P & <-). split; [|destruct QH as (r & Rr & Rh); pose proof (UP p P); pose proof (BO e E1); lra].
    apply (frustum_hull f (fun p => lo <= dot dir p) p K); [apply half_convex'| |exact P]. intros u v w. apply BO, IC. eauto.
Qed.
Print Assumptions C84_extreme.
