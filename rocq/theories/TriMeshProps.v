(** C105: the nearest triangle of a mesh along a ray, in the plain and in the lane-wise layout. *)
From Coq Require Import Reals Lra Psatz ZArith Bool List Arith Lia.
From Verif Require Import Num NumR XNum ScalarModel ScalarProofs Vec3Model GeoTypes GMatProofs GeoSpec GeoLemmas Vec3Props AabbSpec LineModel LineSpec LineProofs LineProofs2 LineProps MatModel MatSpec MatProofs MatProofs2 PlaneModel PlaneSpec PlaneProps
  TriangleModel TriangleSpec TriangleProps TriangleProps2 KdTreeModel TriMeshModel TriMeshSpec TriMeshProofs.
Import ListNotations.
Ltac Zify.zify_post_hook ::= idtac.
Open Scope R_scope.

(** The three numerators of the line/triangle solution. *)
Definition num_s (p : pt) (t : triangle R) : R := dot (minus (tri_c t) (tri_a t)) (cross (minus p (tri_a t)) (minus (tri_b t) (tri_a t))).
Definition num_u (p d : pt) (t : triangle R) : R := dot (minus p (tri_a t)) (cross d (minus (tri_c t) (tri_a t))).
Definition num_v (p d : pt) (t : triangle R) : R := dot d (cross (minus p (tri_a t)) (minus (tri_b t) (tri_a t))).
Lemma line_tri_solve p d t : tri_det t d <> 0 -> forall s u v,
  along p d s = bary t (1 - u - v) u v <-> s = num_s p t / tri_det t d /\ u = num_u p d t / tri_det t d /\ v = num_v p d t / tri_det t d.
Proof.
  destruct t as [a b c]. unfold num_s, num_u, num_v. cbn [tri_a tri_b tri_c]. set (D := tri_det (Tri a b c) d). intros N s' u' v'. rewrite bary_plus. cbn [tri_a tri_b tri_c]. split.
  - intros H. assert (Q : minus p a = minus (plus (scale u' (minus b a)) (scale v' (minus c a))) (scale s' d)).
    { assert (X := f_equal vx H). assert (Y := f_equal vy H). assert (Z := f_equal vz H). apply vec_ext; revert X Y Z; gunf; lra. }
    rewrite Q. set (x := minus b a) in *. set (y := minus c a) in *.
    replace (dot y (cross (minus (plus (scale u' x) (scale v' y)) (scale s' d)) x)) with (s' * D) by (unfold D, tri_det, cross; cbn [tri_a tri_b tri_c]; fold x y; gunf; ring).
    replace (dot (minus (plus (scale u' x) (scale v' y)) (scale s' d)) (cross d y)) with (u' * D) by (unfold D, tri_det, cross; cbn [tri_a tri_b tri_c]; fold x y; gunf; ring).
    replace (dot d (cross (minus (plus (scale u' x) (scale v' y)) (scale s' d)) x)) with (v' * D) by (unfold D, tri_det, cross; cbn [tri_a tri_b tri_c]; fold x y; gunf; ring).
    repeat split; field; easy.
  - intros (-> & -> & ->).
    assert (Q : plus (scale D (minus p a)) (scale (dot (minus c a) (cross (minus p a) (minus b a))) d) =
      plus (scale (dot (minus p a) (cross d (minus c a))) (minus b a)) (scale (dot d (cross (minus p a) (minus b a))) (minus c a))).
    { unfold D, tri_det, cross. cbn [tri_a tri_b tri_c]. set (x := minus b a). set (y := minus c a). set (z := minus p a). apply vec_ext; gunf; ring. }
    set (s := dot (minus c a) _) in *. set (u := dot (minus p a) _) in *. set (v := dot d _) in *. clearbody s u v D.
    apply vec_ext; [apply (f_equal vx) in Q|apply (f_equal vy) in Q|apply (f_equal vz) in Q]; revert Q; unfold along, plus, scale, minus; cbn [vx vy vz]; intros Q;
      apply Rmult_eq_reg_l with D; try easy; field_simplify; try easy; lra.
Qed.

Lemma xmulX a b : xmul (X a) (X b) = X (a * b). Proof. reflexivity. Qed.
Lemma xaddX a b : xadd (X a) (X b) = X (a + b). Proof. reflexivity. Qed.
Lemma xnegX a : xneg (X a) = X (- a). Proof. reflexivity. Qed.
Section SoA.
  Variables (e : R) (rcp : xr -> xr) (flat : xr -> xr -> bool) (r : ray R).
  Hypothesis (Rcp : reciprocal e rcp) (Flat : flat = nleb \/ flat = nltb).

  (** What the code computes for a triangle, when it accepts it. *)
  Definition accepts (t : triangle R) (x u v : R) : Prop :=
    flat (X (Rabs (tri_det t (rdir r)))) (X tol) = false /\
    exists c, rcp (X (tri_det t (rdir r))) = X c /\ x = num_s (rpos r) t * c /\ u = num_u (rpos r) (rdir r) t * c /\ v = num_v (rpos r) (rdir r) t * c /\
      0 <= u <= 1 /\ 0 <= v /\ u + v <= 1 /\ 0 <= x.
  Lemma accepts_det t x u v : accepts t x u v -> tol <= Rabs (tri_det t (rdir r)) /\ tri_det t (rdir r) <> 0.
  Proof.
    intros [F _]. assert (A : tol <= Rabs (tri_det t (rdir r))).
    { destruct Flat as [-> | ->]; cbn in F; [apply Rleb_false in F; lra|apply Rltb_false in F; lra]. }
    split; [exact A|]. intros Z. rewrite Z, Rabs_R0 in A. unfold tol in A. lra.
  Qed.
  Lemma accepts_fun t x u v x' u' v' : accepts t x u v -> accepts t x' u' v' -> x = x' /\ u = u' /\ v = v'.
  Proof. intros (_ & c & E & -> & -> & -> & _) (_ & c' & E' & -> & -> & -> & _). rewrite E in E'. injection E' as <-. auto. Qed.
  Definition near_ok (a : lane xr) (x : R) : Prop := match l_d a with X y => x < y | XP => True | _ => False end.
  Lemma step_ok t i a : (l_d a = XP \/ exists y, l_d a = X y) ->
    let a' := lane_step rcp flat (xray r) i (X (vx (tri_a t))) (X (vy (tri_a t))) (X (vz (tri_a t)))
      (X (vx (tri_b t) + - vx (tri_a t))) (X (vy (tri_b t) + - vy (tri_a t))) (X (vz (tri_b t) + - vz (tri_a t)))
      (X (vx (tri_c t) + - vx (tri_a t))) (X (vy (tri_c t) + - vy (tri_a t))) (X (vz (tri_c t) + - vz (tri_a t))) a in
    (exists x u v, accepts t x u v /\ near_ok a x /\ a' = Lane (X x) (X u) (X v) (Some i)) \/ (a' = a /\ forall x u v, accepts t x u v -> ~ near_ok a x).
  Proof.
    intros Ha. unfold lane_step. cbn [xray xpt rpos rdir vx vy vz nadd nsub nmul nneg nabs nltb nleb nlit Num_X].
    repeat (rewrite ?xmulX, ?xnegX, ?xaddX). cbn [xabs].
    set (p := rpos r). set (d := rdir r).
    match goal with |- context [rcp (X ?q)] => replace q with (tri_det t d) by (unfold tri_det; gunf; cbn; ring) end.
    match goal with |- context [xmul (X ?q) _] => replace q with (num_u p d t) by (unfold num_u, cross; gunf; cbn; ring) end.
    match goal with |- context [xadd (xmul (X (num_u p d t)) _) (xmul (X ?q) _)] => replace q with (num_v p d t) by (unfold num_v, cross; gunf; cbn; ring) end.
    match goal with |- context [xleb (l_d a) (xmul (X ?q) _)] => replace q with (num_s p t) by (unfold num_s, cross; gunf; cbn; ring) end.
    change (X (Rlit 1 10000)) with (X tol).
    destruct (flat (X (Rabs (tri_det t d))) (X tol)) eqn:EF.
    { cbn [orb]. right. split; [reflexivity|]. intros x u v [F _]. fold d in F. congruence. }
    assert (ND : tri_det t d <> 0).
    { intros Z. rewrite Z, Rabs_R0 in EF. destruct Flat as [-> | ->]; cbn in EF; [apply Rleb_false in EF|apply Rltb_false in EF]; unfold tol in EF; lra. }
    destruct (Rcp _ ND) as (k & _ & Ek). rewrite Ek. cbn [orb xmul xadd]. set (c := k / tri_det t d) in *. cbn [n0 n1 nlit Num_X Rlit xltb xleb]. change (IZR 0) with 0. change (IZR 1) with 1.
    assert (Acc : forall x u v, accepts t x u v <-> x = num_s p t * c /\ u = num_u p d t * c /\ v = num_v p d t * c /\ 0 <= u <= 1 /\ 0 <= v /\ u + v <= 1 /\ 0 <= x).
    { intros x u v. unfold accepts. fold p d. split.
      - intros (_ & c' & Ec & H). rewrite Ek in Ec. injection Ec as <-. exact H.
      - intros H. split; [exact EF|]. exists c. split; [exact Ek|exact H]. }
    set (x := num_s p t * c) in *. set (u := num_u p d t * c) in *. set (v := num_v p d t * c) in *.
    unfold near_ok. destruct (Rltb_spec u 0); [cbn [orb]; right; split; [reflexivity|intros ? ? ? HA; apply Acc in HA; lra]|].
    destruct (Rltb_spec 1 u); [cbn [orb]; right; split; [reflexivity|intros ? ? ? HA; apply Acc in HA; lra]|].
    destruct (Rltb_spec v 0); [cbn [orb]; right; split; [reflexivity|intros ? ? ? HA; apply Acc in HA; lra]|].
    destruct (Rltb_spec 1 (u + v)); [cbn [orb]; right; split; [reflexivity|intros ? ? ? HA; apply Acc in HA; lra]|].
    destruct (Rltb_spec x 0); [cbn [orb]; right; split; [reflexivity|intros ? ? ? HA; apply Acc in HA; lra]|]. cbn [orb].
    destruct Ha as [Ha | [y Ha]]; rewrite Ha; cbn [xleb].
    - left. exists x, u, v. split; [apply Acc; lra|]. split; [exact I|reflexivity].
    - destruct (Rleb_spec y x).
      + right. split; [reflexivity|]. intros x' u' v' HA. apply Acc in HA. lra.
      + left. exists x, u, v. split; [apply Acc; lra|]. split; [lra|reflexivity].
  Qed.

  Variables (w : nat) (ts : list (triangle R)) (data : list xr).
  Hypothesis (W : (0 < w)%nat).
  Let g := (length ts / w)%nat.
  Hypothesis Data : forall q l t k, (l < w)%nat -> (q < g)%nat -> (k < 3)%nat -> nth_error ts (q * w + l) = Some t ->
    nth_error data (q * (9 * w) + k * w + l) = Some (X (axis (tri_a t) k)) /\
    nth_error data (q * (9 * w) + (3 + k) * w + l) = Some (X (axis (tri_b t) k + - axis (tri_a t) k)) /\
    nth_error data (q * (9 * w) + (6 + k) * w + l) = Some (X (axis (tri_c t) k + - axis (tri_a t) k)).

  (** The state of lane l after q groups. *)
  Definition lane_ok (l q : nat) (a : lane xr) : Prop :=
    (l_d a = XP /\ forall q' t x u v, (q' < q)%nat -> nth_error ts (q' * w + l) = Some t -> ~ accepts t x u v) \/
    (exists q0 t x u v, a = Lane (X x) (X u) (X v) (Some (q0 * w)%nat) /\ (q0 < q)%nat /\ nth_error ts (q0 * w + l) = Some t /\ accepts t x u v /\
      forall q' t' x' u' v', (q' < q)%nat -> nth_error ts (q' * w + l) = Some t' -> accepts t' x' u' v' -> x <= x').
  Lemma lane_ok_step l q t i a a' : i = (q * w)%nat -> nth_error ts (q * w + l) = Some t -> lane_ok l q a ->
    (exists x u v, accepts t x u v /\ near_ok a x /\ a' = Lane (X x) (X u) (X v) (Some i)) \/ (a' = a /\ forall x u v, accepts t x u v -> ~ near_ok a x) -> lane_ok l (S q) a'.
  Proof.
    intros -> Et Ok [(x & u & v & A & N & ->)|[-> N]].
    - right. exists q, t, x, u, v. split; [reflexivity|]. split; [lia|]. split; [exact Et|]. split; [exact A|].
      intros q' t' x' u' v' Hq Et' A'. destruct (Nat.eq_dec q' q) as [->|].
      + rewrite Et in Et'. injection Et' as <-. destruct (accepts_fun _ _ _ _ _ _ _ A A') as [-> _]. lra.
      + unfold near_ok in N. destruct Ok as [[E H]|(q0 & t0 & x0 & u0 & v0 & -> & _ & _ & _ & H)]; [exfalso; apply (H q' t' x' u' v'); [lia|easy|easy]|].
        cbn [l_d] in N. specialize (H q' t' x' u' v' ltac:(lia) Et' A'). lra.
    - destruct Ok as [[E H]|(q0 & t0 & x0 & u0 & v0 & E & L & E0 & A & H)].
      + left. split; [exact E|]. intros q' t' x u v Hq Et' A'. destruct (Nat.eq_dec q' q) as [->|]; [|now apply (H q' t' x u v); [lia|..]].
        rewrite Et in Et'. injection Et' as <-. apply (N _ _ _ A'). unfold near_ok. now rewrite E.
      + right. exists q0, t0, x0, u0, v0. split; [exact E|]. split; [lia|]. split; [exact E0|]. split; [exact A|].
        intros q' t' x u v Hq Et' A'. destruct (Nat.eq_dec q' q) as [->|]; [|now apply (H q' t' x u v); [lia|..]].
        rewrite Et in Et'. injection Et' as <-. specialize (N _ _ _ A'). unfold near_ok in N. rewrite E in N. cbn [l_d] in N. lra.
  Qed.
  Lemma tri_at q l : (q < g)%nat -> (l < w)%nat -> exists t, nth_error ts (q * w + l) = Some t.
  Proof.
    intros Hq Hl. destruct (nth_error ts (q * w + l)) as [t|] eqn:E; [now exists t|]. apply nth_error_None in E.
    assert (B : (g * w <= length ts)%nat) by (unfold g; rewrite Nat.mul_comm; apply Nat.mul_div_le; lia). nia.
  Qed.
  Lemma lanes_ok q : (q < g)%nat -> forall lanes l0, (l0 + length lanes <= w)%nat -> (forall l a, nth_error lanes l = Some a -> lane_ok (l0 + l) q a) ->
    exists lanes', lanes_step rcp flat (xray r) data (q * (9 * w)) w (q * w) l0 lanes = Some lanes' /\ length lanes' = length lanes /\
      forall l a, nth_error lanes' l = Some a -> lane_ok (l0 + l) (S q) a.
  Proof.
    intros Hq. induction lanes as [|a lanes IH]; intros l0 Hl H.
    { exists []. split; [reflexivity|]. split; [reflexivity|]. intros [|l] b; discriminate. }
    cbn [length] in Hl. destruct (IH (l0 + 1)%nat ltac:(lia)) as (rest & E & L & N).
    { intros l b Hb. replace (l0 + 1 + l)%nat with (l0 + S l)%nat by lia. apply H. exact Hb. }
    destruct (tri_at q l0 Hq ltac:(lia)) as [t Et].
    assert (D0 := Data q l0 t 0 ltac:(lia) Hq ltac:(lia) Et). assert (D1 := Data q l0 t 1 ltac:(lia) Hq ltac:(lia) Et). assert (D2 := Data q l0 t 2 ltac:(lia) Hq ltac:(lia) Et).
    cbn [axis Nat.add] in D0, D1, D2. destruct D0 as (A0 & B0 & C0), D1 as (A1 & B1 & C1), D2 as (A2 & B2 & C2).
    cbn [lanes_step]. unfold lane_load. rewrite A0, A1, A2, B0, B1, B2, C0, C1, C2. cbn [obind]. rewrite E. cbn [option_map].
    eexists. split; [reflexivity|]. split; [cbn; lia|].
    assert (Oa : lane_ok l0 q a) by (specialize (H 0%nat a eq_refl); now rewrite Nat.add_0_r in H).
    intros [|l] b Hb; [|replace (l0 + S l)%nat with (l0 + 1 + l)%nat by lia; apply N; exact Hb].
    cbn in Hb. injection Hb as <-. rewrite Nat.add_0_r. apply (lane_ok_step l0 q t (q * w)%nat a); [reflexivity|exact Et|exact Oa|].
    apply step_ok. destruct Oa as [[Ea _]|(q0 & t0 & x0 & u0 & v0 & -> & _)]; [now left|right; now exists x0].
  Qed.
  Lemma groups_lane_ok : forall n q lanes, (q + n = g)%nat -> length lanes = w -> (forall l a, nth_error lanes l = Some a -> lane_ok l q a) ->
    exists lanes', ray_groups rcp flat (xray r) data (q * (9 * w)) w (q * w) n lanes = Some lanes' /\ length lanes' = w /\ forall l a, nth_error lanes' l = Some a -> lane_ok l g a.
  Proof.
    induction n as [|n IH]; intros q lanes Hq L H.
    { exists lanes. split; [reflexivity|]. split; [exact L|]. now replace g with q by lia. }
    destruct (lanes_ok q ltac:(lia) lanes 0%nat ltac:(lia) H) as (l1 & E & L1 & N). cbn [ray_groups]. rewrite E. cbn [obind].
    replace (q * (9 * w) + 9 * w)%nat with (S q * (9 * w))%nat by lia. replace (q * w + w)%nat with (S q * w)%nat by lia.
    apply IH; [lia|lia|exact N].
  Qed.
  (** What the reduction over the lanes yields. *)
  Definition result_ok (n : nat) (st : hit_result xr) : Prop :=
    (st = (XP, None) /\ forall q l t x u v, (l < n)%nat -> (q < g)%nat -> nth_error ts (q * w + l) = Some t -> ~ accepts t x u v) \/
    (exists i t x u v, st = (X x, Some (i, X u, X v)) /\ (i < g * w)%nat /\ nth_error ts i = Some t /\ accepts t x u v /\
      forall q l t' x' u' v', (l < n)%nat -> (q < g)%nat -> nth_error ts (q * w + l) = Some t' -> accepts t' x' u' v' -> x <= x').
  Lemma reduce_ok : forall lanes l0 st, (forall l a, nth_error lanes l = Some a -> lane_ok (l0 + l) g a) -> (l0 + length lanes <= w)%nat -> result_ok l0 st ->
    result_ok (l0 + length lanes) (reduce l0 lanes st).
  Proof.
    induction lanes as [|a lanes IH]; intros l0 st H Hl Ok; [now rewrite Nat.add_0_r|]. cbn [length] in *. cbn [reduce].
    replace (l0 + S (length lanes))%nat with (l0 + 1 + length lanes)%nat by lia. apply IH; [|lia|].
    { intros l b Hb. replace (l0 + 1 + l)%nat with (l0 + S l)%nat by lia. now apply H. }
    assert (Oa := H 0%nat a eq_refl). rewrite Nat.add_0_r in Oa. unfold nltb, Num_X.
    destruct Oa as [[Ea Na]|(q0 & t & x & u & v & -> & Hq & Et & A & Na)].
    - rewrite Ea. cbn [xltb]. destruct Ok as [[-> No]|(i & t0 & x0 & u0 & v0 & -> & Hi & E0 & A0 & No)]; cbn [fst].
      + left. split; [reflexivity|]. intros q l t x u v L Q E. destruct (Nat.eq_dec l l0) as [->|]; [now apply (Na q)|now apply (No q l); [lia|..]].
      + right. exists i, t0, x0, u0, v0. split; [reflexivity|]. split; [exact Hi|]. split; [exact E0|]. split; [exact A0|].
        intros q l t x u v L Q E. destruct (Nat.eq_dec l l0) as [->|]; [intros A; exfalso; now apply (Na q t x u v)|now apply (No q l); [lia|..]].
    - cbn [l_d l_i l_u l_v]. assert (Hi : (q0 * w + l0 < g * w)%nat) by nia.
      destruct Ok as [[-> No]|(i & t0 & x0 & u0 & v0 & -> & Hi0 & E0 & A0 & No)]; cbn [fst xltb].
      + right. exists (q0 * w + l0)%nat, t, x, u, v. split; [reflexivity|]. split; [exact Hi|]. split; [exact Et|]. split; [exact A|].
        intros q l t' x' u' v' L Q E. destruct (Nat.eq_dec l l0) as [->|]; [now apply (Na q)|intros A'; exfalso; apply (No q l t' x' u' v'); [lia|easy..]].
      + destruct (Rltb_spec x x0).
        * right. exists (q0 * w + l0)%nat, t, x, u, v. split; [reflexivity|]. split; [exact Hi|]. split; [exact Et|]. split; [exact A|].
          intros q l t' x' u' v' L Q E. destruct (Nat.eq_dec l l0) as [->|]; [now apply (Na q)|]. intros A'. specialize (No q l t' x' u' v' ltac:(lia) Q E A'). lra.
        * right. exists i, t0, x0, u0, v0. split; [reflexivity|]. split; [exact Hi0|]. split; [exact E0|]. split; [exact A0|].
          intros q l t' x' u' v' L Q E. destruct (Nat.eq_dec l l0) as [->|]; [|now apply (No q l); [lia|..]]. intros A'. specialize (Na q t' x' u' v' Q E A'). lra.
  Qed.
  Lemma ray_soa_ok (vb : nat) : exists st, IntersectRay_SoA w rcp flat (Mesh data (length ts) vb) (xray r) = Some st /\ result_ok w st.
  Proof.
    unfold IntersectRay_SoA. cbn [m_data m_num]. fold g.
    destruct (groups_lane_ok g 0%nat (repeat lane_init w)) as (lanes & E & L & N); [lia|apply repeat_length| |].
    { intros l a Ha. assert (a = lane_init) by (apply nth_error_In in Ha; now apply repeat_spec in Ha). subst a. left. split; [reflexivity|]. lia. }
    cbn [Nat.mul] in E. rewrite E. cbn [option_map]. eexists. split; [reflexivity|].
    assert (R0 : result_ok 0 (ninf, None)) by (left; split; [reflexivity|lia]). assert (Q := reduce_ok lanes 0%nat (ninf, None) N ltac:(lia) R0). now rewrite L in Q.
  Qed.
End SoA.
