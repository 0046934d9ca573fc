(** C105: theorems about Set and IntersectRay of a triangle mesh. *)
From Coq Require Import Reals Lra Psatz ZArith Bool List Arith Lia.
From Verif Require Import Num NumR XNum ScalarModel ScalarProofs Vec3Model GeoTypes GMatProofs GeoSpec GeoLemmas Vec3Props AabbSpec LineModel LineSpec LineProofs LineProofs2 LineProps MatModel MatSpec MatProofs MatProofs2 PlaneModel PlaneSpec PlaneProps
  TriangleModel TriangleSpec TriangleProps TriangleProps2 KdTreeModel TriMeshModel TriMeshSpec TriMeshProofs TriMeshProps.
Import ListNotations.
Ltac Zify.zify_post_hook ::= idtac.
Open Scope R_scope.

(** Where SetSoA4 and SetSoA8 put triangle number q * w + l of the array. *)
Theorem C105_soa_layout {T : Type} `{NT : Num T} `{NI : !NumInf T} (w : nat) (src : list T) (n vs : nat) (ts : list (triangle T)) :
  (0 < w)%nat -> (3 <= vs)%nat -> length ts = n -> holds src vs ts ->
  exists data, SetSoA w src n (4 * vs) = Some (Mesh data n 12) /\ length data = (n / w * (9 * w))%nat /\
    forall q l t k, (l < w)%nat -> (q < n / w)%nat -> (k < 3)%nat -> nth_error ts (q * w + l) = Some t ->
      nth_error data (q * (9 * w) + k * w + l) = Some (axis (tri_a t) k) /\
      nth_error data (q * (9 * w) + (3 + k) * w + l) = Some (axis (tri_b t) k - axis (tri_a t) k)%num /\
      nth_error data (q * (9 * w) + (6 + k) * w + l) = Some (axis (tri_c t) k - axis (tri_a t) k)%num.
Proof. apply SetSoA_layout. Qed.
Print Assumptions C105_soa_layout.

Lemma corner_x t j k : axis (corner (xtri t) j) k = X (axis (corner t j) k).
Proof. destruct j as [|[|j]], k as [|[|k]]; reflexivity. Qed.
Lemma map_nth {A B} (f : A -> B) l i t : nth_error (map f l) i = Some t <-> exists s, nth_error l i = Some s /\ t = f s.
Proof. rewrite nth_error_map. destruct (nth_error l i) as [s|]; cbn; split; try discriminate; [intros [= <-]; now exists s|intros (s' & [= <-] & ->); reflexivity|intros (s' & [=] & _)]. Qed.

(** The lane-wise ray query after SetSoA, for a reciprocal with relative error at most e: what is reported is a point of the triangle up to the
    factor k = 1 +- e; and no triangle of the full groups is hit before it, except near-parallel ones and points closer than that to the far edge. *)
Theorem C105_soa_ray (w : nat) (e : R) (rcp : xr -> xr) (flat : xr -> xr -> bool) (r : ray R) (ts : list (triangle R)) (src : list xr) (vs : nat) :
  (0 < w)%nat -> (3 <= vs)%nat -> 0 <= e < 1 -> reciprocal e rcp -> flat = nleb \/ flat = nltb -> holds src vs (map xtri ts) ->
  exists m d out, SetSoA w src (length ts) (4 * vs) = Some m /\ IntersectRay_SoA w rcp flat m (xray r) = Some (d, out) /\
    (out = None -> d = XP) /\
    (forall i u v, out = Some (i, u, v) -> exists t x u' v' k, (i < length ts / w * w)%nat /\ nth_error ts i = Some t /\ d = X x /\ u = X u' /\ v = X v' /\
      1 - e <= k <= 1 + e /\ 0 <= x /\ 0 <= u' /\ 0 <= v' /\ u' + v' <= 1 /\ along (rpos r) (rdir r) (x / k) = bary t (1 - u' / k - v' / k) (u' / k) (v' / k)) /\
    (forall i t y u v, (i < length ts / w * w)%nat -> nth_error ts i = Some t -> tol < Rabs (tri_det t (rdir r)) -> 0 <= y -> 0 <= u -> 0 <= v -> (1 + e) * (u + v) <= 1 ->
      along (rpos r) (rdir r) y = bary t (1 - u - v) u v -> exists x, d = X x /\ x <= (1 + e) * y).
Proof.
  intros W V E Rcp Flat H. destruct (SetSoA_layout w src (length ts) vs (map xtri ts) W V (map_length _ _) H) as (data & Es & _ & D).
  exists (Mesh data (length ts) 12). rewrite Es.
  destruct (ray_soa_ok e rcp flat r Rcp Flat w ts data W) with (vb := 12%nat) as (st & Er & Ok).
  { intros q l t k Hl Hq Hk Et. destruct (D q l (xtri t) k Hl Hq Hk) as (A & B & C); [apply map_nth; now exists t|]. rewrite A, B, C.
    change (tri_a (xtri t)) with (corner (xtri t) 0). change (tri_b (xtri t)) with (corner (xtri t) 1). change (tri_c (xtri t)) with (corner (xtri t) 2). now rewrite !corner_x. }
  assert (Lane : forall i, (i < length ts / w * w)%nat -> exists q l, i = (q * w + l)%nat /\ (l < w)%nat /\ (q < length ts / w)%nat).
  { intros i Hi. exists (i / w)%nat, (i mod w)%nat. split; [rewrite Nat.mul_comm; apply Nat.div_mod; lia|]. split; [apply Nat.mod_upper_bound; lia|]. apply Nat.div_lt_upper_bound; lia. }
  assert (Comp : forall t y u v, tol < Rabs (tri_det t (rdir r)) -> 0 <= y -> 0 <= u -> 0 <= v -> (1 + e) * (u + v) <= 1 ->
    along (rpos r) (rdir r) y = bary t (1 - u - v) u v -> exists x u' v', accepts rcp flat r t x u' v' /\ x <= (1 + e) * y).
  { intros t y u v Dt Y U V' S Eq. assert (N : tri_det t (rdir r) <> 0) by (intros Z; rewrite Z, Rabs_R0 in Dt; unfold tol in Dt; lra).
    apply (line_tri_solve _ _ _ N) in Eq. destruct Eq as (Ey & Eu & Ev). destruct (Rcp _ N) as (k & K & Ek).
    assert (X1 : forall n a, a = n / tri_det t (rdir r) -> n * (k / tri_det t (rdir r)) = k * a) by (intros n a ->; field; exact N).
    exists (k * y), (k * u), (k * v). split; [|nra]. split.
    - destruct Flat as [-> | ->]; cbn; [apply Rleb_false; lra|apply Rltb_false; lra].
    - exists (k / tri_det t (rdir r)). split; [exact Ek|]. rewrite (X1 _ _ Ey), (X1 _ _ Eu), (X1 _ _ Ev). split; [reflexivity|]. split; [reflexivity|]. split; [reflexivity|].
      assert (k * (u + v) <= 1) by nra. assert (0 <= k * u) by nra. assert (0 <= k * v) by nra. assert (0 <= k * y) by nra. lra. }
  destruct st as [d out]. exists d, out. split; [reflexivity|]. split; [exact Er|].
  destruct Ok as [[Eo No]|(i & t & x & u & v & Eo & Hi & Et & A & No)]; injection Eo as -> ->.
  - split; [reflexivity|]. split; [discriminate|]. intros i t y u v Hi Et Dt Y U V' S Eq. destruct (Lane i Hi) as (q & l & -> & Hl & Hq).
    destruct (Comp t y u v Dt Y U V' S Eq) as (x & u' & v' & A & _). exfalso. now apply (No q l t x u' v').
  - split; [discriminate|]. split.
    + intros i' u1 v1 Q. injection Q as <- <- <-. destruct (accepts_det rcp flat r Flat t x u v A) as [_ N]. destruct A as (_ & c & Ec & Ex & Eu & Ev & B).
      destruct (Rcp _ N) as (k & K & Ek). rewrite Ek in Ec. injection Ec as <-. exists t, x, u, v, k. split; [exact Hi|]. split; [exact Et|]. split; [reflexivity|]. split; [reflexivity|]. split; [reflexivity|].
      split; [exact K|]. split; [lra|]. split; [lra|]. split; [lra|]. split; [lra|].
      assert (Kn : k <> 0) by lra. apply line_tri_solve; [exact N|]. rewrite Ex, Eu, Ev. repeat split; field; auto.
    + intros i' t' y u' v' Hi' Et' Dt Y U V' S Eq. destruct (Lane i' Hi') as (q & l & -> & Hl & Hq).
      destruct (Comp t' y u' v' Dt Y U V' S Eq) as (x' & u2 & v2 & A' & Le). exists x. split; [reflexivity|]. specialize (No q l t' x' u2 v2 Hl Hq Et' A'). lra.
Qed.
Print Assumptions C105_soa_ray.

(** With an exact reciprocal: the nearest hit. *)
Theorem C105_soa_exact (w : nat) (rcp : xr -> xr) (flat : xr -> xr -> bool) (r : ray R) (ts : list (triangle R)) (src : list xr) (vs : nat) :
  (0 < w)%nat -> (3 <= vs)%nat -> (forall D, D <> 0 -> rcp (X D) = X (1 / D)) -> flat = nleb \/ flat = nltb -> holds src vs (map xtri ts) ->
  exists m d out, SetSoA w src (length ts) (4 * vs) = Some m /\ IntersectRay_SoA w rcp flat m (xray r) = Some (d, out) /\
    (out = None -> d = XP) /\
    (forall i u v, out = Some (i, u, v) -> exists t x u' v', nth_error ts i = Some t /\ d = X x /\ u = X u' /\ v = X v' /\
      ray_hits r t x /\ along (rpos r) (rdir r) x = bary t (1 - u' - v') u' v') /\
    (forall i t y, (i < length ts / w * w)%nat -> nth_error ts i = Some t -> tol < Rabs (tri_det t (rdir r)) -> ray_hits r t y -> exists x, d = X x /\ x <= y).
Proof.
  intros W V Rcp Flat H. destruct (C105_soa_ray w 0 rcp flat r ts src vs W V ltac:(lra)) as (m & d & out & Es & Er & N & S & C); [|exact Flat|exact H|].
  { intros D HD. exists 1. split; [lra|]. now apply Rcp. }
  exists m, d, out. split; [exact Es|]. split; [exact Er|]. split; [exact N|]. split.
  - intros i u v E. destruct (S i u v E) as (t & x & u' & v' & k & Hi & Et & -> & -> & -> & K & X0 & U0 & V0 & UV & Eq). replace k with 1 in Eq by lra.
    unfold Rdiv in Eq. rewrite Rinv_1, !Rmult_1_r in Eq. exists t, x, u', v'. split; [exact Et|]. split; [reflexivity|]. split; [reflexivity|]. split; [reflexivity|]. split; [|exact Eq].
    split; [exact X0|]. exists (1 - u' - v'), u', v'. split; [lra|]. split; [lra|]. split; [lra|]. split; [lra|exact Eq].
  - intros i t y Hi Et Dt [Y (a & b & c & A & B & C' & Sm & Eq)]. replace a with (1 - b - c) in Eq by lra.
    destruct (C i t y b c Hi Et Dt Y B C' ltac:(lra) Eq) as (x & -> & L). exists x. split; [reflexivity|lra].
Qed.
Print Assumptions C105_soa_exact.
