(** C99: [MergeConvex] turns a convex polyhedron into the convex hull of it and the new point. *)
From Coq Require Import Reals Lra Psatz ZArith Bool List Permutation Classical Lia.
From Verif Require Import Num NumR ScalarProofs Vec3Model GeoTypes GeoSpec GeoLemmas AabbSpec LineModel LineSpec LineProps MatSpec MatProofs MatProofs2 SphereSpec SatTheory PlaneModel PlaneSpec PlaneProps PolyTopoModel PolyTopoSpec PolyTopoProofs PolyTopoProps PolyTopoProps3 PolyhedronModel PolyhedronSpec PolyhedronProofs PolyhedronProps.
Import ListNotations.
Open Scope R_scope.
Ltac Zify.zify_post_hook ::= idtac.

(** Vector identities. *)
Lemma gram (n e w m : pt) : dot n e = 0 -> dot n w = 0 -> dot m e = 0 -> dot e e * dot n n * dot m w = dot n (cross e w) * dot m (cross n e).
Proof.
  intros H1 H2 H3. transitivity (dot n n * (dot e e * dot w m - dot e m * dot w e) - dot n e * (dot e n * dot w m - dot e m * dot w n) + dot n m * (dot e n * dot w e - dot e e * dot w n)).
  - rewrite (dot_comm e n), (dot_comm w n), (dot_comm e m), (dot_comm w m), H1, H2, H3. ring.
  - unfold cross. gunf. cbn [vx vy vz]. ring.
Qed.
Lemma cross_zero_dot (m n u : pt) : cross m n = origin -> dot m m * dot n u = dot m n * dot m u.
Proof.
  intros H. assert (E : dot m n * dot m u - dot m m * dot n u = dot (cross m (cross m n)) u) by (unfold cross; gunf; cbn [vx vy vz]; ring).
  rewrite H in E. replace (dot (cross m origin) u) with 0 in E by (unfold cross, origin; gunf; cbn [vx vy vz]; ring). lra.
Qed.
Lemma cross_cross (m n u x : pt) : dot (cross (cross m n) u) x = dot m u * dot n x - dot n u * dot m x.
Proof. unfold cross. gunf. cbn [vx vy vz]. ring. Qed.
Lemma decompose (u p w : pt) : let n := cross u p in dot n n <> 0 -> dot n w = 0 -> w = plus (scale (dot (cross w p) n / dot n n) u) (scale (dot (cross u w) n / dot n n) p).
Proof.
  intros n NN W. assert (E : scale (dot n n) w = plus (plus (scale (dot (cross w p) n) u) (scale (dot (cross u w) n) p)) (scale (dot n w) n)) by (unfold n; apply vec_ext; unfold cross; gunf; cbn [vx vy vz]; ring).
  rewrite W in E. set (a := dot (cross w p) n) in *. set (b := dot (cross u w) n) in *. set (N := dot n n) in *. clearbody a b N. clear W.
  apply vec_ext; [apply (f_equal vx) in E|apply (f_equal vy) in E|apply (f_equal vz) in E]; gunf; cbn [vx vy vz] in E |- *; apply Rmult_eq_reg_l with N; try exact NN; field_simplify; [lra|exact NN|lra|exact NN|lra|exact NN].
Qed.
Lemma cross_parallel (e w : pt) : e <> origin -> cross e w = origin -> exists t, w = scale t e.
Proof.
  intros NZ H. pose proof (nz_pos e NZ) as EE. exists (dot e w / dot e e). assert (E : minus (scale (dot e e) w) (scale (dot e w) e) = scale (-1) (cross e (cross e w))) by (apply vec_ext; unfold cross; gunf; cbn [vx vy vz]; ring).
  rewrite H in E. replace (scale (-1) (cross e origin)) with origin in E by (apply vec_ext; unfold cross, origin; gunf; cbn [vx vy vz]; ring). set (a := dot e w) in *. set (b := dot e e) in *. clearbody a b.
  apply vec_ext; [apply (f_equal vx) in E|apply (f_equal vy) in E|apply (f_equal vz) in E]; unfold origin in E; gunf; cbn [vx vy vz] in E |- *; apply Rmult_eq_reg_l with b; try lra; field_simplify; lra.
Qed.
(** A face is not contained in the line of one of its edges. *)
Lemma strictly_left vs f n a b : outward vs f n -> (3 <= length f)%nat -> In (a, b) (directed f) -> at_index vs a <> at_index vs b ->
  exists x, In x f /\ 0 < dot n (cross (minus (at_index vs b) (at_index vs a)) (minus (at_index vs x) (at_index vs a))).
Proof.
  intros O L I D. apply NNPP. intros K. set (A := at_index vs a) in *. set (B := at_index vs b) in *. assert (E : minus B A <> origin).
  { intros Q. apply D. apply vec_ext; [apply (f_equal vx) in Q|apply (f_equal vy) in Q|apply (f_equal vz) in Q]; unfold origin in Q; gunf; cbn in Q; lra. }
  pose proof (directed_vertex f a b I) as (FA & FB).
  assert (PAR : forall x, In x f -> exists t, minus (at_index vs x) A = scale t (minus B A)).
  { intros x X. apply cross_parallel; [exact E|]. pose proof (cross_normal n _ _ (outward_nz _ _ _ O) (flat _ _ _ O a b FA FB) (flat _ _ _ O a x FA X)) as CN. fold A B in CN. rewrite CN.
    pose proof (left_of_edges _ _ _ O a b x I X) as G. fold A B in G. assert (G' : dot n (cross (minus B A) (minus (at_index vs x) A)) = 0) by (apply Rle_antisym; [|exact G]; apply Rnot_lt_le; intros Q; apply K; exists x; tauto).
    rewrite G'. apply vec_ext; unfold origin; gunf; cbn; unfold Rdiv; ring. }
  pose proof (first_corner _ _ _ O) as F. destruct (PAR (nth 0 f 0%Z) (nth_in_face f 0 ltac:(lia))) as (t0 & T0). destruct (PAR (nth 1 f 0%Z) (nth_in_face f 1 ltac:(lia))) as (t1 & T1). destruct (PAR (nth 2 f 0%Z) (nth_in_face f 2 ltac:(lia))) as (t2 & T2).
  set (x0 := at_index vs (nth 0 f 0%Z)) in *. set (x1 := at_index vs (nth 1 f 0%Z)) in *. set (x2 := at_index vs (nth 2 f 0%Z)) in *.
  replace (minus x1 x0) with (scale (t1 - t0) (minus B A)) in F; [replace (minus x2 x0) with (scale (t2 - t0) (minus B A)) in F|].
  - replace (cross (scale (t1 - t0) (minus B A)) (scale (t2 - t0) (minus B A))) with origin in F by (apply vec_ext; unfold cross, origin; gunf; cbn [vx vy vz]; ring). rewrite dot_origin_r in F. lra.
  - transitivity (minus (minus x2 A) (minus x0 A)); [rewrite T2, T0|]; apply vec_ext; gunf; cbn [vx vy vz]; ring.
  - transitivity (minus (minus x1 A) (minus x0 A)); [rewrite T1, T0|]; apply vec_ext; gunf; cbn [vx vy vz]; ring.
Qed.

Section MERGE.
  Context (vs : list pt) (fs : list (list Z)) (p c : pt).
  Context (V : valid (length vs) fs) (C : closed fs) (TD : tidy vs fs).
  Context (IC : forall f, In f fs -> exists n, outward vs f n /\ forall x, In x f -> dot n (minus c (at_index vs x)) < 0).
  Let at_ := at_index vs.
  Let N := Z.of_nat (length vs).
  Let vs' := vs ++ [p].
  (** Deleted and kept faces. *)
  Context (keep : list Z -> bool).
  Context (KEEP : forall f n x, In f fs -> outward vs f n -> In x f -> keep f = true -> dot n (minus p (at_index vs x)) <= 0).
  Context (DROP : forall f n x, In f fs -> outward vs f n -> In x f -> keep f = false -> 0 < dot n (minus p (at_index vs x))).
  Lemma at_old i : (0 <= i < N)%Z -> at_index vs' i = at_ i.
  Proof. intros I. unfold at_index, vs', at_. apply app_nth1. unfold N in I. lia. Qed.
  Lemma at_new : at_index vs' N = p.
  Proof. unfold at_index, vs', N. rewrite Nat2Z.id, app_nth2 by lia. now rewrite Nat.sub_diag. Qed.
  Lemma face_index f x : In f fs -> In x f -> (0 <= x < N)%Z. Proof. intros F X. destruct (V f F) as (_ & _ & B). exact (B x X). Qed.
  Lemma edge_distinct a b : In (a, b) (all_directed fs) -> at_ a <> at_ b.
  Proof.
    intros I E. destruct TD as (TD1 & _). pose proof (proj2 C a b I) as J. pose proof (TD1 a b b a I J E) as Q. subst b. apply all_directed_in in I as (f & F & I). destruct (V f F) as (L & ND & _). now apply (directed_loop f a a ND) in I; [|lia].
  Qed.
  Lemma rim_faces a b : In (a, b) (horizon keep fs) -> exists F G, In F fs /\ In G fs /\ keep F = false /\ keep G = true /\ In (a, b) (directed F) /\ In (b, a) (directed G).
  Proof.
    intros I. apply (horizon_opposite keep fs C) in I as (I & J). apply all_directed_in in I as (F & IF & I). apply all_directed_in in J as (G & IG & J). apply filter_In in IF as (IF & KF). apply filter_In in IG as (IG & KG). apply negb_true_iff in KF. exists F, G. tauto.
  Qed.
  (** The plane through a rim edge and the new point supports everything, with [c] strictly behind it. *)
  Lemma rim_plane a b : In (a, b) (horizon keep fs) -> let n := cross (minus (at_ b) (at_ a)) (minus p (at_ a)) in
    (forall v, In v vs -> dot n (minus v (at_ a)) <= 0) /\ dot n (minus c (at_ a)) < 0.
  Proof.
    intros H n. destruct (rim_faces a b H) as (F & G & IF & IG & KF & KG & EF & EG). destruct (IC F IF) as (m & OF & CF). destruct (IC G IG) as (k & OG & CG).
    pose proof (directed_vertex F a b EF) as (FA & FB). pose proof (directed_vertex G b a EG) as (GB & GA). destruct (V G IG) as (LG & _).
    assert (AD : In (a, b) (all_directed fs)) by (apply all_directed_in; eauto). pose proof (edge_distinct a b AD) as DI.
    set (A := at_ a) in *. set (B := at_ b) in *. set (e := minus B A) in *. assert (NE : e <> origin).
    { intros Q. apply DI. apply vec_ext; [apply (f_equal vx) in Q|apply (f_equal vy) in Q|apply (f_equal vz) in Q]; unfold origin, e in Q; gunf; cbn in Q; lra. }
    assert (ME : dot m e = 0) by (apply (flat _ _ _ OF); assumption). assert (KE : dot k e = 0) by (apply (flat _ _ _ OG); assumption).
    pose proof (DROP F m a IF OF FA KF) as HF. pose proof (KEEP G k a IG OG GA KG) as HG. fold A in HF, HG. pose proof (CF a FA) as CFA. pose proof (CG a GA) as CGA. change (at_index vs a) with A in CFA, CGA, HF, HG.
    pose proof (nz_pos e NE) as EE. pose proof (nz_pos k (outward_nz _ _ _ OG)) as KK. pose proof (nz_pos m (outward_nz _ _ _ OF)) as MM.
    (* the dihedral angle is convex *)
    assert (KAP : 0 < dot e (cross m k)).
    { assert (DI' : at_index vs b <> at_index vs a) by (intros Q; apply DI; symmetry; exact Q). destruct (strictly_left vs G k b a OG LG EG DI') as (x & X & SL). change (at_index vs a) with A in SL. change (at_index vs b) with B in SL.
      set (w := minus (at_index vs x) B) in *. assert (KW : dot k w = 0) by (apply (flat _ _ _ OG); assumption). assert (MW : dot m w <= 0).
      { unfold w. apply (behind _ _ _ OF b); [exact FB|]. apply (at_in vs (length vs) G); [reflexivity|intros y Y; now apply (face_index G)|exact X]. }
      assert (KE' : dot k (minus A B) = 0) by (apply (flat _ _ _ OG); assumption). assert (ME' : dot m (minus A B) = 0) by (apply (flat _ _ _ OF); assumption).
      pose proof (gram k (minus A B) w m KE' KW ME') as GR. replace (dot m (cross k (minus A B))) with (- dot e (cross m k)) in GR by (unfold e, cross; gunf; cbn [vx vy vz]; ring).
      replace (dot (minus A B) (minus A B)) with (dot e e) in GR by (unfold e; gunf; cbn [vx vy vz]; ring).
      assert (GE : 0 <= dot e (cross m k)).
      { assert (H0 : dot e e * dot k k * dot m w <= 0) by (assert (Q0 : 0 < dot e e * dot k k) by (now apply Rmult_lt_0_compat); clear - Q0 MW; nra). clear - GR SL H0. nra. }
      destruct (Req_dec (dot e (cross m k)) 0) as [Z|]; [|lra]. exfalso.
      assert (CZ : cross m k = origin).
      { rewrite (cross_normal e m k NE); [rewrite Z; apply vec_ext; unfold origin; gunf; cbn; unfold Rdiv; ring|rewrite dot_comm; exact ME|rewrite dot_comm; exact KE]. }
      pose proof (cross_zero_dot m k (minus c A) CZ) as Q1. pose proof (cross_zero_dot m k (minus p A) CZ) as Q2.
      assert (MK : 0 < dot m k) by nra. nra. }
    assert (NK : forall x, dot e (cross m k) / dot e e * dot n (minus x A) = dot m (minus p A) * dot k (minus x A) - dot k (minus p A) * dot m (minus x A)).
    { intros x. rewrite <- cross_cross. assert (EM : dot e m = 0) by (rewrite dot_comm; exact ME). assert (EK : dot e k = 0) by (rewrite dot_comm; exact KE). rewrite (cross_normal e m k NE EM EK) at 2. set (q := _ / _). unfold n. fold e. unfold cross. gunf. cbn [vx vy vz]. ring. }
    assert (KP : 0 < dot e (cross m k) / dot e e) by now apply Rdiv_lt_0_compat. set (q := dot e (cross m k) / dot e e) in *. clearbody q. split.
    - intros v IV. pose proof (behind _ _ _ OF a v FA IV) as B1. pose proof (behind _ _ _ OG a v GA IV) as B2. change (at_index vs a) with A in B1, B2. specialize (NK v). assert (q * dot n (minus v A) <= 0) by (rewrite NK; nra). nra.
    - specialize (NK c). assert (q * dot n (minus c A) < 0) by (rewrite NK; nra). nra.
  Qed.
  (** Outward in the new vertex array. *)
  Lemma outward_same (us ws : list pt) f n : (3 <= length f)%nat -> (forall x, In x f -> at_index us x = at_index ws x) -> outward us f n -> (forall x v, In x f -> In v ws -> dot n (minus v (at_index ws x)) <= 0) -> outward ws f n.
  Proof.
    intros L E O BH. assert (E0 : at_index us (nth 0 f 0%Z) = at_index ws (nth 0 f 0%Z)) by (apply E, nth_In; lia). assert (E1 : at_index us (nth 1 f 0%Z) = at_index ws (nth 1 f 0%Z)) by (apply E, nth_In; lia). assert (E2 : at_index us (nth 2 f 0%Z) = at_index ws (nth 2 f 0%Z)) by (apply E, nth_In; lia). split.
    - intros x y X Y. rewrite <- !E by assumption. now apply (flat _ _ _ O).
    - intros a b x I X. pose proof (directed_vertex f a b I) as (A & B). rewrite <- !E by assumption. now apply (left_of_edges _ _ _ O).
    - rewrite <- E0, <- E1, <- E2. apply (first_corner _ _ _ O).
    - exact BH.
  Qed.
  Lemma kept_outward f n : In f fs -> keep f = true -> outward vs f n -> outward vs' f n.
  Proof.
    intros F K O. destruct (V f F) as (L & _ & B). apply (outward_same vs); [exact L| |exact O|].
    - intros x X. symmetry. apply at_old. exact (B x X).
    - intros x v X IV. rewrite (at_old x (B x X)). apply in_app_iff in IV as [IV|[<-|[]]]; [now apply (behind _ _ _ O)|]. now apply (KEEP f n x).
  Qed.
  Lemma new_outward a b : In (a, b) (horizon keep fs) -> exists n, outward vs' [a; b; N] n /\ forall x, In x [a; b; N] -> dot n (minus c (at_index vs' x)) < 0.
  Proof.
    intros H. destruct (rim_plane a b H) as (R1 & R2). destruct (rim_faces a b H) as (F & G & IF & _ & _ & _ & EF & _). pose proof (directed_vertex F a b EF) as (FA & FB).
    assert (EA : at_index vs' a = at_ a) by (apply at_old; now apply (face_index F)). assert (EB : at_index vs' b = at_ b) by (apply at_old; now apply (face_index F)).
    set (n := cross (minus (at_ b) (at_ a)) (minus p (at_ a))) in *. assert (NZ : n <> origin) by (intros Q; rewrite Q in R2; rewrite dot_comm, dot_origin_r in R2; lra).
    assert (EN : n = cross (minus (at_index vs' b) (at_index vs' a)) (minus (at_index vs' N) (at_index vs' a))) by (rewrite EA, EB, at_new; reflexivity).
    assert (O : outward vs' [a; b; N] n).
    { rewrite EN. apply outward_triangle; rewrite <- EN; [exact NZ|]. rewrite EA. intros v IV. apply in_app_iff in IV as [IV|[<-|[]]]; [now apply R1|]. right. unfold n, cross. gunf. cbn [vx vy vz]. ring. }
    exists n. split; [exact O|]. intros x X. pose proof (flat _ _ _ O x a X (or_introl eq_refl)) as FL. rewrite EA in FL. rewrite dot_minus_r in *. lra.
  Qed.
  (** Only one rim edge leaves a vertex. *)
  Lemma rim_simple a b1 b2 : In (a, b1) (horizon keep fs) -> In (a, b2) (horizon keep fs) -> b1 = b2.
  Proof.
    intros H1 H2. destruct (rim_plane a b1 H1) as (R1 & S1). destruct (rim_plane a b2 H2) as (R2 & S2). destruct (rim_faces a b1 H1) as (F1 & _ & I1 & _ & K1 & _ & E1 & _). destruct (rim_faces a b2 H2) as (F2 & _ & I2 & _ & K2 & _ & E2 & _).
    destruct (IC F1 I1) as (m1 & O1 & _). destruct (IC F2 I2) as (m2 & O2 & _). pose proof (directed_vertex F1 a b1 E1) as (A1 & B1). pose proof (directed_vertex F2 a b2 E2) as (A2 & B2).
    assert (V1 : In (at_ b1) vs) by (apply (at_in vs (length vs) F1); [reflexivity|intros y Y; now apply (face_index F1)|exact B1]). assert (V2 : In (at_ b2) vs) by (apply (at_in vs (length vs) F2); [reflexivity|intros y Y; now apply (face_index F2)|exact B2]).
    pose proof (DROP F1 m1 a I1 O1 A1 K1) as D1. pose proof (DROP F2 m2 a I2 O2 A2 K2) as D2. pose proof (behind _ _ _ O1 a _ A1 V2) as H12. pose proof (behind _ _ _ O2 a _ A2 V1) as H21.
    pose proof (flat _ _ _ O1 a b1 A1 B1) as Z1. pose proof (flat _ _ _ O2 a b2 A2 B2) as Z2. pose proof (R1 _ V2) as N12. pose proof (R2 _ V1) as N21.
    unfold at_ in *. set (u := minus (at_index vs b1) (at_index vs a)) in *. set (w := minus (at_index vs b2) (at_index vs a)) in *. set (x := minus p (at_index vs a)) in *.
    assert (NW : dot (cross u x) w = 0) by (assert (dot (cross w x) u = - dot (cross u x) w) by (unfold cross; gunf; cbn [vx vy vz]; ring); lra).
    assert (NN : dot (cross u x) (cross u x) <> 0).
    { intros Q. apply dot_zero in Q. rewrite Q in S1. rewrite dot_comm, dot_origin_r in S1. lra. }
    pose proof (decompose u x w NN NW) as DE. cbv zeta in DE. set (al := dot (cross w x) (cross u x) / _) in DE. set (be := dot (cross u w) (cross u x) / _) in DE. clearbody al be.
    assert (AL : 0 < al).
    { assert (Q : dot (cross w x) (minus c (at_index vs a)) = al * dot (cross u x) (minus c (at_index vs a))) by (rewrite DE; unfold cross; gunf; cbn [vx vy vz]; ring). rewrite Q in S2. nra. }
    assert (BE1 : be <= 0). { assert (Q : dot m1 w = al * dot m1 u + be * dot m1 x) by (rewrite DE at 1; now rewrite dot_plus_r, !dot_scale_r). nra. }
    assert (BE2 : 0 <= be). { assert (Q : dot m2 w = al * dot m2 u + be * dot m2 x) by (rewrite DE at 1; now rewrite dot_plus_r, !dot_scale_r). nra. }
    destruct TD as (_ & TD2). apply (TD2 a b1 b2 al); [apply all_directed_in; eauto|apply all_directed_in; eauto|exact AL|]. change (w = scale al u). rewrite DE. assert (be = 0) by lra. subst be. apply vec_ext; gunf; cbn [vx vy vz]; ring.
  Qed.
  Lemma rim_nodup : NoDup (map fst (horizon keep fs)).
  Proof.
    apply nodup_map_in; [|apply NoDup_filter, (Dd_nodup keep fs C)]. intros (a & b) (a' & b') I I' E. cbn in E. subst a'. f_equal. now apply (rim_simple a).
  Qed.
  (** The edges of the result. *)
  Let fs' := fst (MergeFaces keep (length vs) fs).
  Lemma new_faces f : In f fs' <-> (In f fs /\ keep f = true) \/ exists a b, In (a, b) (horizon keep fs) /\ f = [a; b; N].
  Proof. apply (C97_merge keep (length vs) fs V C). Qed.
  Lemma rim_vertex a b : In (a, b) (horizon keep fs) -> forall x, x = a \/ x = b -> exists F, In F fs /\ keep F = false /\ In x F.
  Proof. intros H x X. destruct (rim_faces a b H) as (F & _ & IF & _ & KF & _ & EF & _). pose proof (directed_vertex F a b EF) as (FA & FB). exists F. destruct X as [->| ->]; tauto. Qed.
  Lemma new_edges x y : In (x, y) (all_directed fs') -> In (x, y) (all_directed fs) \/ (y = N /\ exists F, In F fs /\ keep F = false /\ In x F) \/ (x = N /\ exists F, In F fs /\ keep F = false /\ In y F).
  Proof.
    intros I. apply all_directed_in in I as (f & F & I). apply new_faces in F as [(F & _)|(a & b & H & ->)]; [left; apply all_directed_in; eauto|]. change (directed [a; b; N]) with [(a, b); (b, N); (N, a)] in I. destruct I as [E|[E|[E|[]]]]; injection E as <- <-.
    - left. destruct (rim_faces a b H) as (F & _ & IF & _ & _ & _ & EF & _). apply all_directed_in. eauto.
    - right. left. split; [reflexivity|]. apply (rim_vertex a b H). now right.
    - right. right. split; [reflexivity|]. apply (rim_vertex a b H). now left.
  Qed.
  Lemma old_edge_index x y : In (x, y) (all_directed fs) -> (0 <= x < N)%Z /\ (0 <= y < N)%Z.
  Proof. intros I. apply all_directed_in in I as (f & F & I). apply directed_vertex in I as (X & Y). split; now apply (face_index f). Qed.
  Lemma drop_outside F x v : In F fs -> keep F = false -> In x F -> In v vs -> exists n, 0 < dot n (minus p (at_ x)) /\ dot n (minus v (at_ x)) <= 0 /\ forall u, In u vs -> dot n (minus u (at_ x)) <= 0.
  Proof. intros IF K X IV. destruct (IC F IF) as (n & O & _). exists n. split; [now apply (DROP F)|]. split; [now apply (behind _ _ _ O)|]. intros u U. now apply (behind _ _ _ O). Qed.
  Lemma old_in F x : In F fs -> In x F -> In (at_ x) vs.
  Proof. intros IF X. apply (at_in vs (length vs) F); [reflexivity|intros y Y; now apply (face_index F)|exact X]. Qed.
  Lemma start_old x y : In (x, y) (all_directed fs') -> x <> N -> (0 <= x < N)%Z /\ exists z, In (x, z) (all_directed fs).
  Proof.
    intros I NX. destruct (new_edges x y I) as [J|[(_ & F & IF & _ & X)|(J & _)]]; [split; [now apply (old_edge_index x y)|eauto]| |easy]. split; [now apply (face_index F)|]. destruct (directed_out F x X) as (z & Z). exists z. apply all_directed_in. eauto.
  Qed.
  Lemma drop_exists_p v : (exists F, In F fs /\ keep F = false) -> In v vs -> v <> p.
  Proof.
    intros (F & IF & KF) IV E. destruct (V F IF) as (L & _). destruct F as [|x F]; [cbn in L; lia|]. destruct (drop_outside _ x v IF KF (or_introl eq_refl) IV) as (n & H1 & H2 & _). subst v. lra.
  Qed.
  Lemma new_tidy : (exists F, In F fs /\ keep F = false) -> tidy vs' fs'.
  Proof.
    intros DR. destruct TD as (TD1 & TD2). split.
    - intros a b x y I J E. destruct (Z.eq_dec a N) as [->|NA], (Z.eq_dec x N) as [->|NX]; [reflexivity| | |].
      + destruct (start_old x y J NX) as (B & z & Q). rewrite at_new, (at_old x B) in E. apply all_directed_in in Q as (F & IF & Q). apply directed_vertex in Q as (X & _). exfalso. now apply (drop_exists_p (at_ x) DR (old_in F x IF X)).
      + destruct (start_old a b I NA) as (B & z & Q). rewrite at_new, (at_old a B) in E. apply all_directed_in in Q as (F & IF & Q). apply directed_vertex in Q as (X & _). exfalso. now apply (drop_exists_p (at_ a) DR (old_in F a IF X)).
      + destruct (start_old a b I NA) as (B & z & Q). destruct (start_old x y J NX) as (B' & z' & Q'). rewrite (at_old a B), (at_old x B') in E. now apply (TD1 a z x z').
    - intros a b x t I J T E. destruct (new_edges a b I) as [I'|[(-> & F & IF & KF & FA)|(-> & F & IF & KF & FB)]].
      + pose proof (old_edge_index a b I') as (BA & BB). destruct (new_edges a x J) as [J'|[(-> & G & IG & KG & GA)|(-> & _)]]; [| |lia].
        * pose proof (old_edge_index a x J') as (_ & BX). rewrite (at_old a BA), (at_old b BB), (at_old x BX) in E. now apply (TD2 a b x t).
        * exfalso. rewrite (at_old a BA), (at_old b BB), at_new in E. apply all_directed_in in I' as (F & IF & I'). apply directed_vertex in I' as (_ & FB). destruct (drop_outside G a (at_ b) IG KG GA (old_in F b IF FB)) as (n & H1 & H2 & _). rewrite E, dot_scale_r in H1. nra.
      + pose proof (face_index F a IF FA) as BA. destruct (new_edges a x J) as [J'|[(-> & _)|(-> & _)]]; [|reflexivity|lia]. exfalso. pose proof (old_edge_index a x J') as (_ & BX). rewrite (at_old a BA), (at_old x BX), at_new in E.
        apply all_directed_in in J' as (G & IG & J'). apply directed_vertex in J' as (_ & GX). destruct (drop_outside F a (at_ x) IF KF FA (old_in G x IG GX)) as (n & H1 & H2 & _). rewrite E, dot_scale_r in H2. nra.
      + pose proof (face_index F b IF FB) as BB. destruct (new_edges N x J) as [J'|[(-> & G & IG & _ & GN)|(_ & G & IG & KG & GX)]].
        * pose proof (old_edge_index N x J'). lia.
        * pose proof (face_index G N IG GN). lia.
        * pose proof (face_index G x IG GX) as BX. rewrite (at_old b BB), (at_old x BX), at_new in E.
          destruct (drop_outside F b (at_ x) IF KF FB (old_in G x IG GX)) as (n & H1 & H2 & _). destruct (drop_outside G x (at_ b) IG KG GX (old_in F b IF FB)) as (m & H3 & H4 & _).
          assert (E1 : minus (at_ x) (at_ b) = scale (1 - t) (minus p (at_ b))).
          { apply vec_ext; [apply (f_equal vx) in E|apply (f_equal vy) in E|apply (f_equal vz) in E]; gunf; cbn [vx vy vz] in *; nra. }
          rewrite E1, dot_scale_r in H2. assert (T1 : 1 <= t) by nra.
          assert (E2 : scale t (minus (at_ b) (at_ x)) = scale (t - 1) (minus p (at_ x))).
          { apply vec_ext; [apply (f_equal vx) in E|apply (f_equal vy) in E|apply (f_equal vz) in E]; gunf; cbn [vx vy vz] in *; nra. }
          assert (T2 : t <= 1) by (apply (f_equal (dot m)) in E2; rewrite !dot_scale_r in E2; nra). assert (T3 : t = 1) by lra. subst t.
          destruct (directed_out F b FB) as (z & Z). destruct (directed_out G x GX) as (z' & Z'). apply (TD1 b z x z'); [apply all_directed_in; eauto|apply all_directed_in; eauto|].
          apply vec_ext; [apply (f_equal vx) in E1|apply (f_equal vy) in E1|apply (f_equal vz) in E1]; unfold at_ in E1; gunf; cbn [vx vy vz] in *; lra.
  Qed.
  (** Some face is kept. *)
  Lemma some_kept : fs <> [] -> exists F, In F fs /\ keep F = true.
  Proof.
    intros NE. apply NNPP. intros K. assert (D : forall f, In f fs -> keep f = false) by (intros f F; destruct (keep f) eqn:E; [exfalso; eauto|reflexivity]).
    assert (NV : vs <> []). { intros Q. destruct fs as [|f gs]; [easy|]. destruct (V f (or_introl eq_refl)) as (L & _ & B). destruct f as [|x f]; [cbn in L; lia|]. specialize (B x (or_introl eq_refl)). rewrite Q in B. cbn in B. lia. }
    assert (DN : minus c p <> origin).
    { intros Q. destruct fs as [|f gs]; [easy|]. destruct (IC f (or_introl eq_refl)) as (n & O & IN). destruct (V f (or_introl eq_refl)) as (L & _). destruct f as [|x f]; [cbn in L; lia|]. specialize (IN x (or_introl eq_refl)). pose proof (DROP (x :: f) n x (or_introl eq_refl) O (or_introl eq_refl) (D (x :: f) (or_introl eq_refl))) as G.
      assert (E : c = p) by (apply vec_ext; [apply (f_equal vx) in Q|apply (f_equal vy) in Q|apply (f_equal vz) in Q]; unfold origin in Q; gunf; cbn in Q; lra). rewrite E in IN. lra. }
    pose proof (nz_pos _ DN) as DD. set (d := minus c p) in *.
    assert (M : exists m, forall v, In v vs -> dot d v <= m).
    { clear - vs. induction vs as [|v us IH]; [exists 0; intros ? []|]. destruct IH as (m & M). exists (Rmax m (dot d v)). intros u [<-|U]; [apply Rmax_r|]. eapply Rle_trans; [now apply M|apply Rmax_l]. }
    destruct M as (m & M). set (t := 1 + Rabs (m - dot d p + 1) / dot d d). assert (T : 1 <= t) by (unfold t; assert (0 <= Rabs (m - dot d p + 1) / dot d d) by (apply Rmult_le_pos; [apply Rabs_pos|left; now apply Rinv_0_lt_compat]); lra).
    set (q := plus p (scale t d)). apply (not_separated vs fs q d V C NE).
    - intros f F. destruct (IC f F) as (n & O & IN). exists n. split; [exact O|]. intros x X. specialize (IN x X). pose proof (DROP f n x F O X (D f F)) as G.
      replace (minus q (at_index vs x)) with (plus (scale t (minus c (at_index vs x))) (scale (1 - t) (minus p (at_index vs x)))) by (unfold q, d; apply vec_ext; gunf; cbn [vx vy vz]; ring). rewrite dot_plus_r, !dot_scale_r. nra.
    - intros v IV. specialize (M v IV). unfold q. rewrite dot_plus_r, dot_scale_r. unfold t. replace ((1 + Rabs (m - dot d p + 1) / dot d d) * dot d d) with (dot d d + Rabs (m - dot d p + 1)) by (field; lra). pose proof (Rle_abs (m - dot d p + 1)). lra.
  Qed.
  Lemma new_solid : fs <> [] -> (exists F, In F fs /\ keep F = false) -> convex_solid vs' fs'.
  Proof.
    intros NE DR. pose proof (C97_merge keep (length vs) fs V C) as (_ & _ & V' & _ & CL). split; [|split; [|split]].
    - unfold vs'. rewrite app_length, Nat.add_comm. exact V'.
    - apply CL. exact rim_nodup.
    - destruct (some_kept NE) as (F & IF & KF). assert (Q : In F fs') by (apply new_faces; now left). intros E. rewrite E in Q. destruct Q.
    - exists c. intros f F. apply new_faces in F as [(F & K)|(a & b & H & ->)]; [|now apply new_outward]. destruct (IC f F) as (n & O & IN). exists n. split; [now apply kept_outward|]. intros x X. rewrite (at_old x (face_index f x F X)). now apply IN.
  Qed.
End MERGE.

(** Merging a point into a convex polyhedron gives a convex polyhedron whose solid is the hull of the old vertices and the point: it is
    closed, all faces point outward, and the tidiness needed for further merging is kept.  Nothing changes exactly when the point was inside. *)
Theorem C99_merge (P : polyhedron R) (p : pt) : convex_solid (hv P) (hf P) -> tidy (hv P) (hf P) ->
  let Q := Hed_MergeConvex P p in
  convex_solid (hv Q) (hf Q) /\ tidy (hv Q) (hf Q) /\ (forall q, in_hull (hv Q) q <-> in_hull (hv P ++ [p]) q) /\
  (in_hull (hv P) p -> Q = P) /\ (~ in_hull (hv P) p -> hv Q = hv P ++ [p]).
Proof.
  intros S TD. pose proof S as (V & C & NE & c & IC). cbv zeta. unfold Hed_MergeConvex. set (keep := fun f => match Hed_FacePlane P f with Some pl => _ | None => true end).
  assert (KE : forall f n x, In f (hf P) -> outward (hv P) f n -> In x f -> keep f = true <-> dot n (minus p (at_index (hv P) x)) <= 0).
  { intros f n x F O X. destruct (V f F) as (L & _). destruct (face_plane P f n L O) as (pl & k & E & K & _ & _ & HH). unfold keep. rewrite E. change (@Plane_SignedDistance R Num_R) with height. rewrite (HH p x X). change (@nleb R Num_R) with Rleb. change (@n0 R Num_R) with 0. rewrite Rleb_true. split; intros H; nra. }
  assert (KEEP : forall f n x, In f (hf P) -> outward (hv P) f n -> In x f -> keep f = true -> dot n (minus p (at_index (hv P) x)) <= 0) by (intros f n x F O X; now apply KE).
  assert (DROP : forall f n x, In f (hf P) -> outward (hv P) f n -> In x f -> keep f = false -> 0 < dot n (minus p (at_index (hv P) x))).
  { intros f n x F O X K. apply Rnot_le_lt. intros Q. apply (KE f n x F O X) in Q. congruence. }
  pose proof (C97_merge keep (length (hv P)) (hf P) V C) as (FI & SN & _).
  assert (HI : in_hull (hv P) p <-> forall f, In f (hf P) -> keep f = true).
  { split.
    - intros I f F. destruct (IC f F) as (n & O & _). destruct (V f F) as (L & _). destruct f as [|x f]; [cbn in L; lia|]. apply (KE (x :: f) n x F O (or_introl eq_refl)). apply (hull_behind _ _ _ I (x :: f) n F O). now left.
    - intros K. apply (solid_hull _ _ _ S). apply behind_some; [exact V|]. intros f F. destruct (IC f F) as (n & O & _). exists n. split; [exact O|]. intros x X. now apply (KEEP f n x F O X), K. }
  destruct (classic (exists F, In F (hf P) /\ keep F = false)) as [DR|DR].
  - assert (NH : ~ in_hull (hv P) p) by (intros I; destruct DR as (F & IF & KF); rewrite (proj1 HI I F IF) in KF; discriminate).
    pose proof (new_solid (hv P) (hf P) p c V C TD IC keep KEEP DROP NE DR) as NS. pose proof (new_tidy (hv P) (hf P) p c V C TD IC keep DROP DR) as NT.
    destruct (MergeFaces keep (length (hv P)) (hf P)) as (gs & added). cbn [fst snd] in *. assert (EA : added = true) by now apply SN. rewrite EA. cbn [hv hf]. split; [exact NS|]. split; [exact NT|]. split; [reflexivity|]. split; [intros I; contradiction|reflexivity].
  - assert (AK : forall f, In f (hf P) -> keep f = true) by (intros f F; destruct (keep f) eqn:E; [reflexivity|exfalso; eauto]). assert (IH : in_hull (hv P) p) by now apply HI.
    assert (EQ : MergeFaces keep (length (hv P)) (hf P) = (hf P, false)).
    { unfold MergeFaces. replace (filter (fun f => negb (keep f)) (hf P)) with (@nil face).
      - cbn [fold_left]. f_equal. clear - AK. induction (hf P) as [|f gs IH]; [reflexivity|]. cbn. rewrite AK by now left. f_equal. apply IH. intros g G. apply AK. now right.
      - clear - AK. induction (hf P) as [|f gs IH]; [reflexivity|]. cbn. rewrite AK by now left. cbn. apply IH. intros g G. apply AK. now right. }
    rewrite EQ. cbn [hv hf]. split; [exact S|]. split; [exact TD|]. split; [|split; [intros _; now destruct P|contradiction]].
    intros q. split; intros I A CV H.
    + apply I; [exact CV|]. intros v IV. apply H, in_app_iff. now left.
    + apply I; [exact CV|]. intros v IV. apply in_app_iff in IV as [IV|[<-|[]]]; [now apply H|]. now apply IH.
Qed.
Print Assumptions C99_merge.

(** Merging any list of points gives the hull of all of them, and every merged point ends up inside. *)
Theorem C99_merge_all (ps : list pt) (P : polyhedron R) : convex_solid (hv P) (hf P) -> tidy (hv P) (hf P) ->
  let Q := fold_left Hed_MergeConvex ps P in
  convex_solid (hv Q) (hf Q) /\ tidy (hv Q) (hf Q) /\ (forall q, in_hull (hv Q) q <-> in_hull (hv P ++ ps) q) /\
  (forall v, In v (hv Q) -> In v (hv P ++ ps)) /\ forall q, Hed_ContainsConvex Q q 0 = true <-> in_hull (hv P ++ ps) q.
Proof.
  cbv zeta. revert P. induction ps as [|p ps IH]; intros P S TD; cbn [fold_left].
  - rewrite app_nil_r. split; [exact S|]. split; [exact TD|]. split; [reflexivity|]. split; [easy|]. intros q. now apply C98_contains.
  - pose proof (C99_merge P p S TD) as (S1 & T1 & H1 & I1 & O1). destruct (IH _ S1 T1) as (S2 & T2 & H2 & V2 & C2).
    assert (HH : forall q, in_hull (hv (Hed_MergeConvex P p) ++ ps) q <-> in_hull (hv P ++ p :: ps) q).
    { assert (SUB : forall A : pt -> Prop, convex A -> ((forall v, In v (hv (Hed_MergeConvex P p) ++ ps) -> A v) <-> forall v, In v (hv P ++ p :: ps) -> A v)).
      { intros A CA. destruct (classic (in_hull (hv P) p)) as [I|I].
        - rewrite (I1 I). split; intros H v IV; apply in_app_iff in IV as [IV|IV]; try (apply H, in_app_iff; cbn; tauto). destruct IV as [<-|IV]; [|apply H, in_app_iff; tauto]. apply I; [exact CA|]. intros v IV. apply H, in_app_iff. tauto.
        - rewrite (O1 I), <- app_assoc. reflexivity. }
      intros q. split; intros I A CA H; apply I; try exact CA; now apply (SUB A CA). }
    split; [exact S2|]. split; [exact T2|]. split; [intros q; rewrite H2; apply HH|]. split.
    + intros v IV. specialize (V2 v IV). apply in_app_iff in V2 as [V2|V2]; [|apply in_app_iff; cbn; tauto]. destruct (classic (in_hull (hv P) p)) as [I|I]; [rewrite (I1 I) in V2|rewrite (O1 I) in V2; apply in_app_iff in V2]; apply in_app_iff; cbn in *; tauto.
    + intros q. rewrite C2. apply HH.
Qed.
Print Assumptions C99_merge_all.

Lemma tetra_tidy : tidy (hv tetra) (hf tetra).
Proof.
  pose proof tetra_at as (A0 & A1 & A2 & A3).
  assert (R4 : forall a b, In (a, b) (all_directed (hf tetra)) -> In a [0; 1; 2; 3]%Z /\ In b [0; 1; 2; 3]%Z).
  { intros a b I. change (all_directed (hf tetra)) with [(0, 2); (2, 1); (1, 0); (0, 1); (1, 3); (3, 0); (0, 3); (3, 2); (2, 0); (1, 2); (2, 3); (3, 1)]%Z in I. cbn in I |- *. intuition; match goal with E : (_, _) = (_, _) |- _ => injection E as <- <- end; tauto. }
  split.
  - intros a b c d I J E. apply R4 in I as (I & _). apply R4 in J as (J & _). cbn in I, J. destruct I as [<-|[<-|[<-|[<-|[]]]]], J as [<-|[<-|[<-|[<-|[]]]]]; rewrite ?A0, ?A1, ?A2, ?A3 in E; try reflexivity; exfalso; injection E; intros; lra.
  - intros a b c t I J T E. apply R4 in J as (_ & J). pose proof (R4 _ _ I) as (K & I'). assert (NE : a <> b) by (intros <-; change (all_directed (hf tetra)) with [(0, 2); (2, 1); (1, 0); (0, 1); (1, 3); (3, 0); (0, 3); (3, 2); (2, 0); (1, 2); (2, 3); (3, 1)]%Z in I; cbn in I; intuition congruence).
    cbn in I', J, K. destruct K as [<-|[<-|[<-|[<-|[]]]]], I' as [<-|[<-|[<-|[<-|[]]]]], J as [<-|[<-|[<-|[<-|[]]]]]; rewrite ?A0, ?A1, ?A2, ?A3 in E; try reflexivity; try (now elim NE); exfalso;
      unfold minus, scale in E; cbn [vx vy vz] in E; injection E; intros; lra.
Qed.
Example C99_merge_witness : convex_solid (hv tetra) (hf tetra) /\ tidy (hv tetra) (hf tetra) /\ ~ in_hull (hv tetra) (V3 1 1 1) /\ in_hull (hv tetra) (V3 (1/4) (1/4) (1/4)).
Proof.
  split; [exact tetra_solid|]. split; [exact tetra_tidy|]. pose proof C98_contains_witness as (_ & H1 & H2). split.
  - intros I. apply (proj1 (C98_contains tetra _ tetra_solid)) in I. congruence.
  - now apply (proj1 (C98_contains tetra _ tetra_solid)).
Qed.
