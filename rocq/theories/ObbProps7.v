(** C51 continued: enclosing boxes of point sets, edge compatibility, faces. *)
From Coq Require Import Sorting.Sorted ZArith Reals Psatz List Bool Permutation.
From Verif Require Import Num NumR ScalarModel ScalarProofs Vec3Model GeoTypes GeoSpec GeoLemmas Vec3Props AabbModel AabbSpec AabbProofs AabbProps AabbProps2 MatModel MatSpec MatProofs MatProofs2 LineModel LineSpec LineProofs LineProofs2 LineProps
  RotModel RotSpec RotProofs PlaneModel PlaneSpec PlaneProps PlaneProps2 PlaneProps4 SphereModel SphereSpec SphereProps SphereProps2 SphereProps3 TriangleModel TriangleSpec TriangleProps TriangleProps3 TriangleProps5 TriangleProps7 SatModel SatTheory SatProps CircleModel CircleProps CapsuleModel CapsuleProps CapsuleProps3 ObbModel ObbProps ObbProps2 ObbProps4 ObbProps5 ObbProps6 PlaneProps3 MatProps AabbProps2 TriangleSpec TriangleProps TriangleProps3 TriangleProps7 LineSpec.
Import ListNotations.
Open Scope R_scope.
Ltac Zify.zify_post_hook ::= idtac.

(** ** The sphere grown around a box *)
Lemma obb_in_hull (o : obb R) p : in_obb o p -> in_hull (OBB_GetCornerPoints o) p.
Proof. intros I A CV H. apply (obb_hull A o p); [exact CV| |exact I]. intros i L. apply H. unfold OBB_GetCornerPoints. apply in_map. apply in_seq. Lia.lia. Qed.
Theorem C51_enclosing_sphere (s : sphere R) (o : obb R) : 1 <= srad s -> srad s <= srad (Sphere_EncloseOBB s o) /\ forall p, in_sphere s p \/ in_obb o p -> in_sphere (Sphere_EncloseOBB s o) p.
Proof.
  intros S. destruct (C45_enclose_shapes s (OBB_GetCornerPoints o) (Seg origin origin) (Tri origin origin origin) (Box origin origin) S) as ((G & H) & _). split; [exact G|].
  intros p [I|I]; apply H; [now left|right; now apply obb_in_hull].
Qed.
Print Assumptions C51_enclosing_sphere.
(** ** Extreme points of a list *)
Definition first_least (f : pt -> R) (pts : list pt) (i : nat) (d : R) : Prop :=
  (exists p, nth_error pts i = Some p /\ f p = d) /\ (forall p, In p pts -> d <= f p) /\ forall j p, (j < i)%nat -> nth_error pts j = Some p -> d < f p.
Lemma first_least_one f p : first_least f [p] 0 (f p).
Proof. split; [exists p; now split|]. split; [intros q [->|[]]; lra|intros j q J; Lia.lia]. Qed.
Lemma first_least_snoc f pts q i d : first_least f pts i d -> first_least f (pts ++ [q]) (if Rltb (f q) d then length pts else i) (if Rltb (f q) d then f q else d).
Proof.
  intros ((p & P & D) & L & F). assert (I : (i < length pts)%nat) by (apply nth_error_Some; congruence).
  destruct (Rltb_spec (f q) d) as [B|B].
  - split; [exists q; split; [rewrite nth_error_app2, Nat.sub_diag by Lia.lia; reflexivity|reflexivity]|]. split.
    + intros x X. apply in_app_or in X. destruct X as [X|[ -> |[]]]; [apply L in X; lra|lra].
    + intros j x J X. rewrite nth_error_app1 in X by exact J. apply nth_error_In in X. apply L in X. lra.
  - split; [exists p; split; [rewrite nth_error_app1 by exact I; exact P|exact D]|]. split.
    + intros x X. apply in_app_or in X. destruct X as [X|[ -> |[]]]; [now apply L|lra].
    + intros j x J X. rewrite nth_error_app1 in X by Lia.lia. now apply (F j).
Qed.
Theorem C51_extreme_points (dir : pt) (pts : list pt) :
  match OBB_ExtremePointsAlongDirection dir pts with
  | None => pts = []
  | Some (i, j, lo, hi) => first_least (fun p => dot p dir) pts i lo /\ first_least (fun p => - dot p dir) pts j (- hi)
  end.
Proof.
  unfold OBB_ExtremePointsAlongDirection. destruct pts as [|p rest]; [reflexivity|].
  match goal with |- context [fold_left ?g rest ?b] => set (f := g); set (a := b) end.
  assert (H : forall rest (front : list pt) i j lo hi, first_least (fun p => dot p dir) front i lo -> first_least (fun p => - dot p dir) front j (- hi) ->
    let '(k, (i', j', lo', hi')) := fold_left f rest (length front, (i, j, lo, hi)) in first_least (fun p => dot p dir) (front ++ rest) i' lo' /\ first_least (fun p => - dot p dir) (front ++ rest) j' (- hi')).
  { clear rest a. induction rest as [|q rest IH]; intros front i j lo hi A B.
    - cbn. rewrite app_nil_r. now split.
    - cbn [fold_left]. apply (first_least_snoc _ _ q) in A, B. replace (front ++ q :: rest) with ((front ++ [q]) ++ rest) by (rewrite <- app_assoc; reflexivity).
      replace (f (length front, (i, j, lo, hi)) q) with (length (front ++ [q]), (if Rltb (dot q dir) lo then length front else i, if Rltb (- dot q dir) (- hi) then length front else j, if Rltb (dot q dir) lo then dot q dir else lo, if Rltb hi (dot q dir) then dot q dir else hi)).
      + apply IH; [exact A|]. destruct (Rltb_spec (- dot q dir) (- hi)), (Rltb_spec hi (dot q dir)); try lra; exact B.
      + rewrite app_length. cbn [length]. replace (length front + 1)%nat with (S (length front)) by Lia.lia. unfold f. toG. rsimpl. destruct (Rltb (dot q dir) lo), (Rltb_spec (- dot q dir) (- hi)), (Rltb_spec hi (dot q dir)); try lra; reflexivity. }
  specialize (H rest [p] 0%nat 0%nat (dot p dir) (dot p dir) (first_least_one (fun p => dot p dir) p) (first_least_one (fun p => - dot p dir) p)).
  change (length [p], (0%nat, 0%nat, dot p dir, dot p dir)) with a in H. destruct (fold_left f rest a) as [k [[[i j] lo] hi]]. exact H.
Qed.
Print Assumptions C51_extreme_points.
(** The smallest box with the given axes around the points. *)
Theorem C51_fixed_orientation (pts : list pt) (dir0 dir1 : pt) : unitv dir0 -> unitv dir1 -> orth dir0 dir1 ->
  match OBB_FixedOrientationEnclosingOBB pts dir0 dir1 with
  | None => pts = []
  | Some o => framed o /\ obb_ok o /\ oaxis0 o = dir0 /\ oaxis1 o = dir1 /\ (forall p, In p pts -> in_obb o p) /\
      forall o', framed o' -> oaxis0 o' = dir0 -> oaxis1 o' = dir1 -> oaxis2 o' = oaxis2 o -> (forall p, In p pts -> in_obb o' p) -> forall p, in_obb o p -> in_obb o' p
  end.
Proof.
  intros U0 U1 O. unfold OBB_FixedOrientationEnclosingOBB. change (@Cross R Num_R) with cross.
  assert (UC : unitv (cross dir0 dir1)). { unfold unitv, orth in *. rewrite cross_sq, U0, U1, O. ring. }
  rewrite (Normalized_unit _ UC). set (e := cross dir0 dir1) in *.
  assert (O0 : dot dir0 e = 0) by (unfold e; apply cross_dot_l). assert (O1 : dot dir1 e = 0) by (unfold e; apply cross_dot_r). clearbody e.
  pose proof (C51_extreme_points dir0 pts) as E0. pose proof (C51_extreme_points dir1 pts) as E1. pose proof (C51_extreme_points e pts) as E2.
  destruct (OBB_ExtremePointsAlongDirection dir0 pts) as [[[[i0 j0] l0] h0]|]; [|exact E0].
  destruct (OBB_ExtremePointsAlongDirection dir1 pts) as [[[[i1 j1] l1] h1]|]; [|exact E1].
  destruct (OBB_ExtremePointsAlongDirection e pts) as [[[[i2 j2] l2] h2]|]; [|exact E2].
  toG. rsimpl. change (@nhalf R Num_R) with (1/2).
  match goal with |- framed ?x /\ _ => set (o := x) end.
  destruct E0 as (((a0 & N0 & A0) & L0 & _) & ((b0 & M0 & B0) & H0 & _)). destruct E1 as (((a1 & N1 & A1) & L1 & _) & ((b1 & M1 & B1) & H1 & _)). destruct E2 as (((a2 & N2 & A2) & L2 & _) & ((b2 & M2 & B2) & H2 & _)).
  apply nth_error_In in N0, N1, N2, M0, M1, M2.
  assert (F : framed o) by (unfold framed, o; cbn; unfold orth; repeat split; assumption).
  assert (C : forall p, crd0 o p = dot p dir0 - (l0 + h0) / 2 /\ crd1 o p = dot p dir1 - (l1 + h1) / 2 /\ crd2 o p = dot p e - (l2 + h2) / 2).
  { intros p. unfold crd0, crd1, crd2, o. cbn [opos oaxis0 oaxis1 oaxis2]. unfold unitv, orth in *.
    rewrite !dot_minus_l, !dot_plus_l, !dot_scale_l, U0, U1, UC, (dot_comm dir1 dir0), (dot_comm e dir0), (dot_comm e dir1), O, O0, O1. repeat split; field. }
  assert (B : forall p, In p pts -> l0 <= dot p dir0 <= h0 /\ l1 <= dot p dir1 <= h1 /\ l2 <= dot p e <= h2).
  { intros p P. pose proof (L0 p P). pose proof (L1 p P). pose proof (L2 p P). pose proof (H0 p P). pose proof (H1 p P). pose proof (H2 p P). cbn beta in *. lra. }
  assert (IN : forall p, in_obb o p <-> l0 <= dot p dir0 <= h0 /\ l1 <= dot p dir1 <= h1 /\ l2 <= dot p e <= h2).
  { intros p. rewrite (in_obb_crd o p F). destruct (C p) as (-> & -> & ->). unfold within_r, o. cbn [orad vx vy vz]. lra. }
  split; [exact F|]. split; [destruct (B a0 N0) as (? & ? & ?); unfold obb_ok, o; cbn [orad vx vy vz]; lra|]. split; [reflexivity|]. split; [reflexivity|]. split; [intros p P; apply IN; now apply B|].
  intros o' F' X0 X1 X2 I' p P. apply IN in P. unfold o in X2. cbn [oaxis2] in X2.
  assert (J : forall q, in_obb o' q <-> within_r (vx (orad o')) (dot q dir0 - dot (opos o') dir0) /\ within_r (vy (orad o')) (dot q dir1 - dot (opos o') dir1) /\ within_r (vz (orad o')) (dot q e - dot (opos o') e)) by (intros q; rewrite (in_obb_crd o' q F'); unfold crd0, crd1, crd2; rewrite X0, X1, X2, !dot_minus_l; reflexivity).
  apply J. apply I', J in N0, N1, N2, M0, M1, M2. unfold within_r in *. clear - P N0 N1 N2 M0 M1 M2 A0 A1 A2 B0 B1 B2. lra.
Qed.
Print Assumptions C51_fixed_orientation.
(** ** Edges of the box and the Gauss map *)
(** The normal at parameter t of the arc between the face normals fa and fb (t = 1 at fa). *)
Definition arc (fa fb : pt) (t : R) : pt := plus fb (scale t (minus fa fb)).
Lemma lin_zero x y : (x <= 0 /\ 0 <= y) \/ (y <= 0 /\ 0 <= x) -> exists t, 0 <= t <= 1 /\ x + t * (y - x) = 0.
Proof.
  intros H. destruct (Req_dec x y) as [->|N]; [exists 0; lra|]. destruct (Rlt_or_le x y) as [L|L].
  - exists (- x / (y - x)). split; [|field; lra]. split; [apply Rle_mult_inv_pos; lra|]. apply (Rmult_le_reg_r (y - x)); [lra|]. unfold Rdiv. rewrite Rmult_assoc, Rinv_l by lra. lra.
  - exists (x / (x - y)). split; [|field; lra]. split; [apply Rle_mult_inv_pos; lra|]. apply (Rmult_le_reg_r (x - y)); [lra|]. unfold Rdiv. rewrite Rmult_assoc, Rinv_l by lra. lra.
Qed.
Theorem C51_compatible_edges (f1a f1b f2a f2b : pt) : AreEdgesCompatibleForOBB f1a f1b f2a f2b = true <-> exists t u, 0 <= t <= 1 /\ 0 <= u <= 1 /\ orth (arc f1a f1b t) (arc f2a f2b u).
Proof.
  unfold AreEdgesCompatibleForOBB. rewrite !Max_R, !Min_R. toG. rsimpl. rewrite andb_true_iff, !Rleb_true.
  set (a := dot f1b f2b). set (b := dot (minus f1a f1b) f2b). set (c := dot (minus f2a f2b) f1b). set (d := dot (minus f1a f1b) (minus f2a f2b)).
  assert (E : forall t u, dot (arc f1a f1b t) (arc f2a f2b u) = a + b * t + c * u + d * t * u).
  { intros. unfold arc. rewrite dot_plus_l, !dot_plus_r, !dot_scale_l, !dot_scale_r. fold a b d. rewrite (dot_comm f1b (minus f2a f2b)). fold c. ring. }
  assert (G : (exists t u, 0 <= t <= 1 /\ 0 <= u <= 1 /\ orth (arc f1a f1b t) (arc f2a f2b u)) <-> exists t u, 0 <= t <= 1 /\ 0 <= u <= 1 /\ a + b * t + c * u + d * t * u = 0) by (split; intros (t & u & T & U & O); exists t, u; unfold orth in *; rewrite E in *; repeat split; lra).
  rewrite G. clearbody a b c d. clear. split.
  - intros [L H].
    assert (K : forall x y, In x [a; a + b; a + c; a + b + c + d] -> In y [a; a + b; a + c; a + b + c + d] -> x <= 0 -> 0 <= y -> exists t u, 0 <= t <= 1 /\ 0 <= u <= 1 /\ a + b * t + c * u + d * t * u = 0).
    { assert (E1 : (a <= 0 /\ 0 <= a + b) \/ (a + b <= 0 /\ 0 <= a) -> exists t u, 0 <= t <= 1 /\ 0 <= u <= 1 /\ a + b * t + c * u + d * t * u = 0) by (intros H'; destruct (lin_zero _ _ H') as (t & T & Z); exists t, 0; repeat split; try lra).
      assert (E2 : (a <= 0 /\ 0 <= a + c) \/ (a + c <= 0 /\ 0 <= a) -> exists t u, 0 <= t <= 1 /\ 0 <= u <= 1 /\ a + b * t + c * u + d * t * u = 0) by (intros H'; destruct (lin_zero _ _ H') as (t & T & Z); exists 0, t; repeat split; try lra).
      assert (E3 : (a + b <= 0 /\ 0 <= a + b + c + d) \/ (a + b + c + d <= 0 /\ 0 <= a + b) -> exists t u, 0 <= t <= 1 /\ 0 <= u <= 1 /\ a + b * t + c * u + d * t * u = 0) by (intros H'; destruct (lin_zero _ _ H') as (t & T & Z); exists 1, t; repeat split; try lra).
      assert (E4 : (a + c <= 0 /\ 0 <= a + b + c + d) \/ (a + b + c + d <= 0 /\ 0 <= a + c) -> exists t u, 0 <= t <= 1 /\ 0 <= u <= 1 /\ a + b * t + c * u + d * t * u = 0) by (intros H'; destruct (lin_zero _ _ H') as (t & T & Z); exists t, 1; repeat split; try lra).
      intros x y X Y X0 Y0. destruct (Rle_or_lt a 0), (Rle_or_lt (a + b) 0), (Rle_or_lt (a + c) 0), (Rle_or_lt (a + b + c + d) 0); try (apply E1; lra); try (apply E2; lra); try (apply E3; lra); try (apply E4; lra).
      - cbn in X, Y. assert (Z : a = 0 \/ a + b = 0 \/ a + c = 0 \/ a + b + c + d = 0) by (destruct Y as [ <- |[ <- |[ <- |[ <- |[]]]]]; lra). destruct Z as [Z|[Z|[Z|Z]]]; [exists 0, 0|exists 1, 0|exists 0, 1|exists 1, 1]; repeat split; lra.
      - cbn in X. exfalso. destruct X as [ <- |[ <- |[ <- |[ <- |[]]]]]; lra. }
    assert (LM : exists x, In x [a; a + b; a + c; a + b + c + d] /\ x <= 0).
    { destruct (Rle_or_lt a 0); [exists a; split; [cbn; tauto|lra]|]. destruct (Rle_or_lt (a + b) 0); [exists (a + b); split; [cbn; tauto|lra]|]. destruct (Rle_or_lt (a + c) 0); [exists (a + c); split; [cbn; tauto|lra]|].
      destruct (Rle_or_lt (a + b + c + d) 0); [exists (a + b + c + d); split; [cbn; tauto|lra]|]. exfalso. assert (0 < Rmin (Rmin a (a + b)) (Rmin (a + c) (a + b + c + d))) by (repeat apply Rmin_glb_lt; lra). lra. }
    assert (HM : exists x, In x [a; a + b; a + c; a + b + c + d] /\ 0 <= x).
    { destruct (Rle_or_lt 0 a); [exists a; split; [cbn; tauto|lra]|]. destruct (Rle_or_lt 0 (a + b)); [exists (a + b); split; [cbn; tauto|lra]|]. destruct (Rle_or_lt 0 (a + c)); [exists (a + c); split; [cbn; tauto|lra]|].
      destruct (Rle_or_lt 0 (a + b + c + d)); [exists (a + b + c + d); split; [cbn; tauto|lra]|]. exfalso. assert (Rmax (Rmax a (a + b)) (Rmax (a + c) (a + b + c + d)) < 0) by (repeat apply Rmax_lub_lt; lra). lra. }
    destruct LM as (x & X & X0), HM as (y & Y & Y0). exact (K x y X Y X0 Y0).
  - intros (t & u & T & U & Z).
    assert (W : (1 - t) * (1 - u) * a + t * (1 - u) * (a + b) + (1 - t) * u * (a + c) + t * u * (a + b + c + d) = 0) by (rewrite <- Z; ring).
    set (p := (1 - t) * (1 - u)) in *. set (q := t * (1 - u)) in *. set (r := (1 - t) * u) in *. set (s := t * u) in *.
    assert (P0 : 0 <= p) by (apply Rmult_le_pos; lra). assert (Q0 : 0 <= q) by (apply Rmult_le_pos; lra). assert (R0 : 0 <= r) by (apply Rmult_le_pos; lra). assert (S0 : 0 <= s) by (apply Rmult_le_pos; lra).
    assert (S1 : p + q + r + s = 1) by (unfold p, q, r, s; ring). clearbody p q r s.
    set (m := Rmin _ _). set (M := Rmax _ _).
    assert (m <= a /\ m <= a + b /\ m <= a + c /\ m <= a + b + c + d) as (m1 & m2 & m3 & m4).
    { unfold m. pose proof (Rmin_l (Rmin a (a + b)) (Rmin (a + c) (a + b + c + d))). pose proof (Rmin_r (Rmin a (a + b)) (Rmin (a + c) (a + b + c + d))). pose proof (Rmin_l a (a + b)). pose proof (Rmin_r a (a + b)). pose proof (Rmin_l (a + c) (a + b + c + d)). pose proof (Rmin_r (a + c) (a + b + c + d)). lra. }
    assert (a <= M /\ a + b <= M /\ a + c <= M /\ a + b + c + d <= M) as (M1 & M2 & M3 & M4).
    { unfold M. pose proof (Rmax_l (Rmax a (a + b)) (Rmax (a + c) (a + b + c + d))). pose proof (Rmax_r (Rmax a (a + b)) (Rmax (a + c) (a + b + c + d))). pose proof (Rmax_l a (a + b)). pose proof (Rmax_r a (a + b)). pose proof (Rmax_l (a + c) (a + b + c + d)). pose proof (Rmax_r (a + c) (a + b + c + d)). lra. }
    set (x1 := a) in *. set (x2 := a + b) in *. set (x3 := a + c) in *. set (x4 := a + b + c + d) in *. clearbody m M x1 x2 x3 x4. clear - W P0 Q0 R0 S0 S1 m1 m2 m3 m4 M1 M2 M3 M4.
    split; nra.
Qed.
Print Assumptions C51_compatible_edges.
(** Two edges whose normal arcs contain opposite directions. *)
Definition columns (c0 c1 c2 : pt) : mat3 R := M3 (V3 (vx c0) (vx c1) (vx c2)) (V3 (vy c0) (vy c1) (vy c2)) (V3 (vz c0) (vz c1) (vz c2)).
Lemma columns_R c0 c1 c2 x : apply (columns c0 c1 c2) x = plus (scale (vx x) c0) (plus (scale (vy x) c1) (scale (vz x) c2)).
Proof. unfold apply, columns. gunf. apply vec_ext; cbn [row0 row1 row2 vx vy vz]; ring. Qed.
Theorem C51_opposing_edges (f1a f1b f2a f2b : pt) :
  let inner t := 1 / 10000 <= t <= 1 - 1 / 10000 in
  let opposite t u c := inner t /\ inner u /\ 0 < c /\ arc f1a f1b t = scale (- c) (arc f2a f2b u) in
  match AreCompatibleOpposingEdges f1a f1b f2a f2b with
  | Some n => exists t u c, opposite t u c /\ n = arc f1a f1b t /\ forall t' u' c', opposite t' u' c' -> t' = t /\ u' = u /\ c' = c
  | None => (exists t u c, opposite t u c) -> exists y, 1 <= norm y /\ let e := plus (scale (vx y) f2b) (plus (scale (vy y) (minus f1a f1b)) (scale (vz y) (minus f2a f2b))) in Rabs (vx e) < 1 / 1000 /\ Rabs (vy e) < 1 / 1000 /\ Rabs (vz e) < 1 / 1000
  end.
Proof.
  intros inner opposite. unfold AreCompatibleOpposingEdges. fold (columns f2b (vsub f1a f1b) (vsub f2a f2b)). toG.
  replace (vneg f1b) with (scale (-1) f1b) by (vunf; gunf; apply vec_ext; cbn; ring).
  assert (EQ : forall t u c, arc f1a f1b t = scale (- c) (arc f2a f2b u) <-> apply (columns f2b (minus f1a f1b) (minus f2a f2b)) (V3 c t (c * u)) = scale (-1) f1b).
  { intros t u c. rewrite columns_R. cbn [vx vy vz]. unfold arc. split; intros E.
    - apply (f_equal (fun z => minus z (plus f1b (scale (- c) (plus f2b (scale u (minus f2a f2b))))))) in E. revert E. gunf. intros E. injection E as E1 E2 E3. apply vec_ext; cbn [vx vy vz]; lra.
    - apply (f_equal (fun z => minus z (plus (scale c f2b) (scale (c * u) (minus f2a f2b))))) in E. revert E. gunf. intros E. injection E as E1 E2 E3. apply vec_ext; cbn [vx vy vz]; lra. }
  destruct (SolveAxb _ _) as [s|] eqn:S; [|intros _; apply C31_SolveAxb_complete in S; destruct S as (y & Y & S); exists y; rewrite columns_R in S; split; [exact Y|exact S]]. pose proof (SolveAxb_correct _ _ _ S) as SC.
  destruct s as [c t cu]. cbn [vx vy vz]. rsimpl. change (@n0 R Num_R) with 0. change (@n1 R Num_R) with 1.  assert (U : forall t' u' c', opposite t' u' c' -> c' = c /\ t' = t /\ c' * u' = cu).
  { intros t' u' c' (_ & _ & _ & E). apply EQ in E. apply SC in E. injection E as -> -> E. repeat split; assumption. }
  destruct (Rleb_spec c 0) as [C|C]; cbn [orb]; [intros (t' & u' & c' & O); destruct (U _ _ _ O) as (-> & _); destruct O as (_ & _ & O & _); lra|].
  assert (CU : forall t' u' c', opposite t' u' c' -> u' = cu / c /\ t' = t /\ c' = c /\ inner t /\ inner (cu / c)).
  { intros t' u' c' O. destruct (U _ _ _ O) as (-> & -> & E). destruct O as (I & J & _). assert (u' = cu / c) by (rewrite <- E; field; lra). subst u'. repeat split; try apply I; apply J. }
  destruct (Rltb_spec t 0) as [T0|T0]; cbn [orb]; [intros (t' & u' & c' & O); destruct (CU _ _ _ O) as (_ & _ & _ & I & _); unfold inner in I; lra|].
  destruct (Rltb_spec 1 t) as [T1|T1]; cbn [orb]; [intros (t' & u' & c' & O); destruct (CU _ _ _ O) as (_ & _ & _ & I & _); unfold inner in I; lra|].
  destruct (Rltb_spec t (1 / 10000)) as [T2|T2]; cbn [orb]; [intros (t' & u' & c' & O); destruct (CU _ _ _ O) as (_ & _ & _ & I & _); unfold inner in I; lra|].
  destruct (Rltb_spec (1 - 1 / 10000) t) as [T3|T3]; cbn [orb]; [intros (t' & u' & c' & O); destruct (CU _ _ _ O) as (_ & _ & _ & I & _); unfold inner in I; lra|].
  destruct (Rltb_spec (cu / c) (1 / 10000)) as [U0|U0]; cbn [orb]; [intros (t' & u' & c' & O); destruct (CU _ _ _ O) as (_ & _ & _ & _ & I); unfold inner in I; lra|].
  destruct (Rltb_spec (1 - 1 / 10000) (cu / c)) as [U1|U1]; cbn [orb]; [intros (t' & u' & c' & O); destruct (CU _ _ _ O) as (_ & _ & _ & _ & I); unfold inner in I; lra|].
  assert (M : cu = c * (cu / c)) by (field; lra). set (u := cu / c) in *. clearbody u. subst cu.
  destruct (Rltb_spec (c * u) 0) as [N|N]; cbn [orb]; [exfalso; nra|]. destruct (Rltb_spec c (c * u)) as [N'|N']; cbn [orb]; [exfalso; nra|].
  exists t, u, c. split; [|split; [unfold arc; vunf; gunf; rsimpl; apply vec_ext; cbn [vx vy vz]; ring|]].
  - unfold opposite, inner. repeat split; try lra. apply EQ. apply SC. reflexivity.
  - intros t' u' c' O. destruct (CU _ _ _ O) as (-> & -> & -> & _). repeat split.
Qed.
Print Assumptions C51_opposing_edges.
(** A vertex is lowest along some direction of the arc of an edge. *)
Theorem C51_antipodal (v f1a f1b : pt) (nb : list pt) :
  ((exists t, 0 <= t <= 1 /\ forall w, In w nb -> 0 <= dot (arc f1a f1b t) (minus w v)) -> IsVertexAntipodalToEdge v nb f1a f1b = true) /\
  (IsVertexAntipodalToEdge v nb f1a f1b = true -> exists t, - (1 / 40) <= t <= 1 + 1 / 40 /\ forall w, In w nb -> - (1 / 40 * Rabs (dot (minus f1b f1a) (minus w v)) + 3 / 10000) <= dot (arc f1a f1b t) (minus w v)).
Proof.
  unfold IsVertexAntipodalToEdge. toG. change (@n0 R Num_R) with 0. change (@n1 R Num_R) with 1.
  assert (A : forall t w, dot (arc f1a f1b t) (minus w v) = dot f1b (minus w v) - t * dot (minus f1b f1a) (minus w v)).
  { intros. unfold arc. rewrite dot_plus_l, dot_scale_l. replace (minus f1a f1b) with (scale (-1) (minus f1b f1a)) by (gunf; apply vec_ext; cbn; ring). rewrite dot_scale_l. ring. }
  set (g := minus f1b f1a) in *. clearbody g.
  assert (K : forall nb lo hi, 0 <= lo -> hi <= 1 -> ((exists t, lo <= t <= hi /\ forall w, In w nb -> 0 <= dot (arc f1a f1b t) (minus w v)) -> antipodalLoop v f1b g nb lo hi = true) /\
    (hi - lo >= - (1 / 20) -> antipodalLoop v f1b g nb lo hi = true -> exists lo' hi', lo <= lo' /\ hi' <= hi /\ - (1 / 20) <= hi' - lo' /\ forall t w, In w nb -> lo' - 1 / 40 <= t <= hi' + 1 / 40 -> Rabs t <= 2 -> - (1 / 40 * Rabs (dot g (minus w v)) + 3 / 10000) <= dot (arc f1a f1b t) (minus w v))).
  { clear nb. induction nb as [|w nb IH]; intros lo hi LO HI.
    - split; [reflexivity|]. intros D _. exists lo, hi. repeat split; try lra. intros t w [].
    - cbn [antipodalLoop]. toG. rsimpl. rewrite !Max_R, !Min_R.
      specialize (A) as A'. set (s := dot g (minus w v)) in *. set (n := dot f1b (minus w v)) in *.
      assert (AW : forall t, dot (arc f1a f1b t) (minus w v) = n - t * s) by (intros; apply A').
      destruct (Rltb_spec (1 / 10000) s) as [S|S].
      + destruct (IH lo (Rmin hi (n / s)) LO ltac:(pose proof (Rmin_l hi (n / s)); lra)) as [I1 I2]. assert (Q : n = n / s * s) by (field; lra). set (q := n / s) in *. clearbody q. subst n. split.
        * intros (t & T & W). assert (t <= q) by (specialize (W w (or_introl eq_refl)); rewrite AW in W; nra). rewrite (proj2 (Rltb_false _ _)) by (pose proof (Rmin_glb hi q t ltac:(lra) ltac:(lra)); lra).
          apply I1. exists t. split; [split; [lra|apply Rmin_glb; lra]|]. intros x X. apply W. now right.
        * intros D. destruct (Rltb_spec (Rmin hi q - lo) (- (5 / 100))) as [B|B]; [discriminate|]. intros L. destruct (I2 ltac:(lra) L) as (lo' & hi' & A1 & A2 & A3 & A4). exists lo', hi'. pose proof (Rmin_l hi q). pose proof (Rmin_r hi q). repeat split; try lra.
          intros t x [ <- |X] T T2; [|now apply A4]. rewrite AW. fold s. rewrite Rabs_pos_eq by lra. nra.
      + destruct (Rltb_spec s (- (1 / 10000))) as [S'|S'].
        * destruct (IH (Rmax lo (n / s)) hi ltac:(pose proof (Rmax_l lo (n / s)); lra) HI) as [I1 I2]. assert (Q : n = n / s * s) by (field; lra). set (q := n / s) in *. clearbody q. subst n. split.
          -- intros (t & T & W). assert (q <= t) by (specialize (W w (or_introl eq_refl)); rewrite AW in W; nra). rewrite (proj2 (Rltb_false _ _)) by (pose proof (Rmax_lub lo q t ltac:(lra) ltac:(lra)); lra).
             apply I1. exists t. split; [split; [apply Rmax_lub; lra|lra]|]. intros x X. apply W. now right.
          -- intros D. destruct (Rltb_spec (hi - Rmax lo q) (- (5 / 100))) as [B|B]; [discriminate|]. intros L. destruct (I2 ltac:(lra) L) as (lo' & hi' & A1 & A2 & A3 & A4). exists lo', hi'. pose proof (Rmax_l lo q). pose proof (Rmax_r lo q). repeat split; try lra.
             intros t x [ <- |X] T T2; [|now apply A4]. rewrite AW. fold s. rewrite Rabs_left by lra. nra.
        * destruct (IH lo hi LO HI) as [I1 I2]. split.
          -- intros (t & T & W). pose proof (W w (or_introl eq_refl)) as W0. rewrite AW in W0. rewrite (proj2 (Rltb_false n _)) by nra. rewrite (proj2 (Rltb_false _ _)) by lra. apply I1. exists t. split; [exact T|]. intros x X. apply W. now right.
          -- intros D. destruct (Rltb_spec n (- (1 / 10000))) as [N|N]; [discriminate|]. destruct (Rltb_spec (hi - lo) (- (5 / 100))) as [B|B]; [discriminate|]. intros L. destruct (I2 ltac:(lra) L) as (lo' & hi' & A1 & A2 & A3 & A4). exists lo', hi'. repeat split; try lra.
             intros t x [ <- |X] T T2; [|now apply A4]. rewrite AW. fold s. pose proof (Rabs_pos s). assert (Rabs (t * s) <= 2 / 10000) by (rewrite Rabs_mult; assert (Rabs s <= 1 / 10000) by (apply Rabs_le; lra); pose proof (Rabs_pos t); nra). pose proof (Rle_abs (t * s)). lra. }
  destruct (K nb 0 1 ltac:(lra) ltac:(lra)) as [K1 K2]. split; [exact K1|]. intros L. destruct (K2 ltac:(lra) L) as (lo & hi & A1 & A2 & A3 & A4). exists ((lo + hi) / 2). split; [lra|]. intros w W. apply A4; [exact W|lra|apply Rabs_le; lra].
Qed.
Print Assumptions C51_antipodal.
(** ** The circle against the faces *)
Lemma circle_two (P : plane R) c q1 q2 rest : Plane_IntersectsCircle P c = q1 :: q2 :: rest -> rest = [].
Proof.
  unfold Plane_IntersectsCircle. destruct (Plane_IntersectsPlane _ _); [|discriminate]. cbv zeta. destruct (SolveQuadratic _ _ _) as [[b [r1|]] [r2|]]; intros E; try discriminate E. injection E as _ _ E. now symmetry.
Qed.
Theorem C51_circle_faces (c : circle R) (o : obb R) : framed o -> 0 <= circ_r c -> (forall i, (i < 6)%nat -> crossing (OBB_FacePlane o i) (Circle_ContainingPlane c)) ->
  (forall p, In p (Circle_IntersectsFaces c o) -> in_obb o p /\ (exists i, (i < 6)%nat /\ on_plane (OBB_FacePlane o i) p) /\ dot (circ_normal c) (minus p (circ_pos c)) = 0 /\ Rabs (dist (circ_pos c) p * dist (circ_pos c) p - circ_r c * circ_r c) <= 1 / 4000000) /\
  (forall p i, (i < 6)%nat -> on_plane (OBB_FacePlane o i) p -> on_circle c p -> in_obb o p -> In p (Circle_IntersectsFaces c o) \/ exists q, Plane_IntersectsCircle (OBB_FacePlane o i) c = [q] /\ dist p q <= 1 / 2000).
Proof.
  intros F Rp X. unfold Circle_IntersectsFaces. split.
  - intros p P. apply in_flat_map in P. destruct P as (i & I & P). apply in_seq in I. apply filter_In in P. destruct P as [P CT]. apply C51_contains in CT; [|exact F]. split; [exact CT|].
    assert (L : (i < 6)%nat) by Lia.lia. pose proof (C41_circle (OBB_FacePlane o i) c Rp (X i L)) as H. set (P1 := OBB_FacePlane o i) in *.
    assert (G : on_plane P1 p /\ dot (circ_normal c) (minus p (circ_pos c)) = 0 /\ Rabs (dist (circ_pos c) p * dist (circ_pos c) p - circ_r c * circ_r c) <= 1 / 4000000).
    { destruct (Plane_IntersectsCircle P1 c) as [|q1 [|q2 rest]] eqn:E; [destruct P| |].
      - destruct P as [ <- |[]]. destruct H as (H1 & H2 & H3 & _). repeat split; assumption.
      - destruct H as [_ H]. assert (E2 : rest = []) by exact (circle_two _ _ _ _ _ E). subst rest.
        assert (D : on_circle c p /\ on_plane P1 p) by (apply H; destruct P as [ <- |[ <- |[]]]; [now left|now right]). destruct D as [[D1 D2] D3]. split; [exact D3|]. split; [exact D1|]. rewrite D2. replace (_ - _) with 0 by ring. rewrite Rabs_R0. lra. }
    destruct G as (G1 & G2 & G3). split; [now exists i|]. now split.
  - intros p i L OP OC IO. pose proof (C41_circle (OBB_FacePlane o i) c Rp (X i L)) as H.
    destruct (Plane_IntersectsCircle (OBB_FacePlane o i) c) as [|q1 [|q2 rest]] eqn:E.
    + exfalso. exact (H p (conj OC OP)).
    + right. exists q1. split; [reflexivity|]. destruct H as (_ & _ & _ & H). now apply H.
    + left. apply in_flat_map. exists i. split; [apply in_seq; Lia.lia|]. apply filter_In. split; [|now apply C51_contains]. rewrite E. destruct H as [_ H]. destruct (proj1 (H p) (conj OC OP)) as [ -> | -> ]; cbn; tauto.
Qed.
Print Assumptions C51_circle_faces.
(** ** [SortedArrayContains] *)
Lemma sorted_in fuel arr i l r : sortedLoop fuel arr i l r = Found true -> In i arr.
Proof.
  revert l r. induction fuel as [|fuel IH]; intros l r; [discriminate|]. cbn [sortedLoop]. destruct (l <? r)%Z; [|discriminate]. destruct (nth_error arr _) as [x|] eqn:E; [|discriminate].
  destruct (Z.ltb_spec x i); [apply IH|]. destruct (Z.ltb_spec i x); [apply IH|]. intros _. replace i with x by Lia.lia. now apply nth_error_In in E.
Qed.
Theorem C51_sorted_array_actual fuel arr i : SortedArrayContains fuel arr i = Found true -> In i arr.
Proof.
  unfold SortedArrayContains. destruct arr as [|x rest]; [discriminate|]. destruct (Z.eqb_spec x i) as [->|N]; [now left|]. destruct (Z.eqb_spec (last (x :: rest) 0%Z) i) as [E|N'].
  - intros _. rewrite <- E. rewrite (app_removelast_last 0%Z (l := x :: rest)) at 2 by discriminate. apply in_or_app. right. now left.
  - cbn [orb]. destruct (_ || _)%bool; [discriminate|]. apply sorted_in.
Qed.
Print Assumptions C51_sorted_array_actual.
(** It assigns the searched value to the bounds: it can miss an element, and can run for ever. *)
Theorem C51_sorted_array_refuted :
  (exists arr i, StronglySorted Z.lt arr /\ In i arr /\ forall fuel, (10 <= fuel)%nat -> SortedArrayContains fuel arr i = Found false) /\
  (exists arr i, StronglySorted Z.lt arr /\ In i arr /\ forall fuel, SortedArrayContains fuel arr i = Timeout).
Proof.
  split.
  - exists [0; 1; 2; 3; 100; 200]%Z, 100%Z. split; [repeat constructor|]. split; [cbn; tauto|]. intros fuel L. do 2 (destruct fuel as [|fuel]; [Lia.lia|]). reflexivity.
  - exists [1; 3; 5; 7; 9; 11]%Z, 5%Z. split; [repeat constructor|]. split; [cbn; tauto|].
    assert (H : forall fuel, sortedLoop fuel [1; 3; 5; 7; 9; 11]%Z 5 0 5 = Timeout). { induction fuel as [|fuel IH]; [reflexivity|]. exact IH. }
    exact H.
Qed.
Print Assumptions C51_sorted_array_refuted.
(** ** A turned box that meets the hypotheses above *)
Definition wobb : obb R := Obb (V3 1 2 3) (V3 2 1 (1 / 2)) (V3 (3 / 5) (4 / 5) 0) (V3 (- (4 / 5)) (3 / 5) 0) (V3 0 0 1).
Example C51_witness : framed wobb /\ thick wobb /\ obb_ok wobb /\ in_obb wobb (V3 2 3 3) /\ steady wobb (V3 1 0 0) /\ OBB_Contains wobb (V3 2 3 3) = true /\ OBB_Contains wobb (V3 4 3 3) = false.
Proof.
  assert (F : framed wobb) by (unfold framed, unitv, orth, dot, wobb; cbn; repeat split; field). split; [exact F|]. split; [unfold thick, wobb; cbn; lra|]. split; [unfold obb_ok, wobb; cbn; lra|].
  assert (I : in_obb wobb (V3 2 3 3)) by (apply (in_obb_crd _ _ F); unfold within_r, crd0, crd1, crd2, dot, minus, wobb; cbn; lra). split; [exact I|]. split.
  - unfold steady, dot, wobb. cbn. repeat split; [right; rewrite Rabs_pos_eq; lra|right; rewrite Rabs_left; lra|left; lra].
  - split; [now apply C51_contains|]. destruct (OBB_Contains wobb (V3 4 3 3)) eqn:E; [|reflexivity]. apply (C51_contains _ _ F) in E. apply (in_obb_crd _ _ F) in E. unfold within_r, crd0, crd1, crd2, dot, minus, wobb in E. cbn in E. lra.
Qed.
