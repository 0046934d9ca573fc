(** C105: the plain layout, and what Set and the padding of SetConvex do. *)
From Coq Require Import Reals Lra Psatz ZArith Bool List Arith Lia.
From Verif Require Import Num NumR XNum ScalarModel ScalarProofs Vec3Model GeoTypes GMatProofs GeoSpec GeoLemmas Vec3Props AabbSpec LineModel LineSpec LineProofs LineProofs2 LineProps MatModel MatSpec MatProofs MatProofs2 PlaneModel PlaneSpec PlaneProps
  TriangleModel TriangleSpec TriangleProps TriangleProps2 KdTreeModel TriMeshModel TriMeshSpec TriMeshProofs TriMeshProps TriMeshProps2.
Import ListNotations.
Ltac Zify.zify_post_hook ::= idtac.
Open Scope R_scope.

Definition x3 (q : R * R * R) : xr * xr * xr := let '(s, u, v) := q in (X s, X u, X v).
Lemma Abs_X a : Abs (X a) = X (Rabs a).
Proof. unfold Abs. cbn [nleb Num_X n0 nlit Rlit xleb nneg xneg]. destruct (Rleb_spec 0 a); f_equal; unfold Rabs; destruct Rcase_abs; lra. Qed.
Lemma LineTri_X p d t : IntersectLineTri (xpt p) (xpt d) (tri_a (xtri t)) (tri_b (xtri t)) (tri_c (xtri t)) = option_map x3 (IntersectLineTri p d (tri_a t) (tri_b t) (tri_c t)).
Proof.
  destruct t as [a b c]. cbn [tri_a tri_b tri_c xtri]. unfold IntersectLineTri, Cross, Dot, vsub. cbv zeta.
  cbn [xpt vx vy vz nadd nsub nmul nneg nltb nleb nlit ndiv Num_X Num_R n1]. repeat (rewrite ?xmulX, ?xnegX, ?xaddX). rewrite Abs_X, Abs_R. cbn [xleb xltb].
  set (D := _ + (vz b + - vz a) * _). change (_ + (vz b - vz a) * _) with D.
  destruct (Rleb_spec (Rabs D) (Rlit 1 10000)) as [L|L]; [reflexivity|].
  assert (N : D <> 0) by (intros Z; rewrite Z, Rabs_R0 in L; cbn in L; lra).
  unfold xdiv. destruct (Req_EM_T D 0) as [Z|_]; [easy|]. repeat (rewrite ?xmulX, ?xnegX, ?xaddX). cbn [xltb].
  match goal with |- (if ?c1 then _ else _) = option_map _ (if ?c2 then _ else _) => change c2 with c1; destruct c1; [reflexivity|] end.
  match goal with |- (if ?c1 then _ else _) = option_map _ (if ?c2 then _ else _) => change c2 with c1; destruct c1; [reflexivity|] end.
  reflexivity.
Qed.

(** An array with three floats per vertex, read triangle by triangle. *)
Lemma skipn_nth {A} : forall (l : list A) p x, nth_error l p = Some x -> skipn p l = x :: skipn (S p) l.
Proof. induction l as [|y l IH]; intros [|p] x; cbn; try discriminate; [intros [= ->]; reflexivity|]. intros H. rewrite (IH _ _ H). reflexivity. Qed.
Lemma read_holds {T} (src : list T) ts i t : holds src 3 ts -> nth_error ts i = Some t -> read_tri src (9 * i) = Some t.
Proof.
  intros H Et. unfold read_tri.
  assert (G : forall n, (n < 9)%nat -> nth_error src (n + 9 * i) = Some (axis (corner t (n / 3)) (n mod 3))).
  { intros n Hn. rewrite <- (H i t (n / 3)%nat (n mod 3)%nat Et); [|apply Nat.div_lt_upper_bound; lia|apply Nat.mod_upper_bound; lia]. f_equal. pose proof (Nat.div_mod n 3 ltac:(lia)). lia. }
  set (p := (9 * i)%nat) in *. clearbody p.
  assert (K : forall n, (n < 9)%nat -> skipn (n + p) src = axis (corner t (n / 3)) (n mod 3) :: skipn (S n + p) src) by (intros n Hn; apply (skipn_nth src (n + p)), G, Hn).
  change (skipn p src) with (skipn (0 + p) src).
  rewrite (K 0%nat), (K 1%nat), (K 2%nat), (K 3%nat), (K 4%nat), (K 5%nat), (K 6%nat), (K 7%nat), (K 8%nat) by lia.
  cbn. now destruct t as [[? ? ?] [? ? ?] [? ? ?]].
Qed.
Lemma holds_firstn {T} (src : list T) ts n : n = (9 * length ts)%nat -> holds src 3 ts -> holds (firstn n src) 3 ts.
Proof.
  intros -> H i t j k Et Hj Hk. rewrite <- (H i t j k Et Hj Hk). assert (i < length ts)%nat by (apply nth_error_Some; congruence).
  rewrite <- (firstn_skipn (9 * length ts) src) at 2. destruct (Nat.lt_ge_cases ((3 * i + j) * 3 + k) (length (firstn (9 * length ts) src))) as [L|L]; [now rewrite nth_error_app1|].
  assert (B : ((3 * i + j) * 3 + k < length src)%nat) by (apply nth_error_Some; rewrite (H i t j k Et Hj Hk); discriminate). rewrite firstn_length in L. lia.
Qed.

(** What the plain loop accepts. *)
Definition taken (r : ray R) (t : triangle R) (x u v : R) : Prop := IntersectLineTri (rpos r) (rdir r) (tri_a t) (tri_b t) (tri_c t) = Some (x, u, v) /\ 0 <= x.
Definition cpp_ok (r : ray R) (ts : list (triangle R)) (n : nat) (st : hit_result xr) : Prop :=
  (st = (XP, None) /\ forall i t x u v, (i < n)%nat -> nth_error ts i = Some t -> ~ taken r t x u v) \/
  (exists i t x u v, st = (X x, Some (i, X u, X v)) /\ (i < n)%nat /\ nth_error ts i = Some t /\ taken r t x u v /\
    forall j t' x' u' v', (j < n)%nat -> nth_error ts j = Some t' -> taken r t' x' u' v' -> x <= x' /\ ((j < i)%nat -> x < x')).
Lemma cpp_loop_ok r ts data : holds data 3 (map xtri ts) -> forall n i st, (i + n = length ts)%nat -> cpp_ok r ts i st ->
  exists st', cpp_loop (xray r) data (9 * i) i n st = Some st' /\ cpp_ok r ts (length ts) st'.
Proof.
  intros H. induction n as [|n IH]; intros i st Hi Ok; [exists st; split; [reflexivity|]; now replace (length ts) with i by lia|].
  destruct (nth_error ts i) as [t|] eqn:Et; [|apply nth_error_None in Et; lia]. cbn [cpp_loop].
  rewrite (read_holds data (map xtri ts) i (xtri t) H) by (apply map_nth; now exists t). cbn [obind]. cbn [xray rpos rdir]. rewrite LineTri_X.
  replace (9 * i + 9)%nat with (9 * (i + 1))%nat by lia. apply IH; [lia|].
  assert (Stay : (forall x u v, taken r t x u v -> match fst st with X y => y <= x | _ => False end) -> cpp_ok r ts (i + 1) st).
  { intros N. destruct Ok as [[-> No]|(i0 & t0 & x0 & u0 & v0 & -> & Hi0 & Et0 & T0 & No)].
    - left. split; [reflexivity|]. intros j t' x u v Hj Ej Tj. destruct (Nat.eq_dec j i) as [->|]; [rewrite Et in Ej; injection Ej as <-; exact (N _ _ _ Tj)|now apply (No j t' x u v); [lia|..]].
    - right. exists i0, t0, x0, u0, v0. split; [reflexivity|]. split; [lia|]. split; [exact Et0|]. split; [exact T0|].
      intros j t' x u v Hj Ej Tj. destruct (Nat.eq_dec j i) as [->|]; [|apply (No j t' x u v); [lia|easy|easy]]. rewrite Et in Ej. injection Ej as <-. specialize (N _ _ _ Tj). cbn [fst] in N. split; [exact N|lia]. }
  destruct (IntersectLineTri (rpos r) (rdir r) (tri_a t) (tri_b t) (tri_c t)) as [[[x u] v]|] eqn:EI; cbn [option_map x3].
  2:{ apply Stay. intros x u v [Q _]. congruence. }
  cbn [nleb nltb n0 nlit Num_X Rlit xleb]. destruct (Rleb_spec 0 x) as [X0|X0]; cbn [andb].
  2:{ apply Stay. intros x' u' v' [Q L]. rewrite EI in Q. injection Q as <- <- <-. lra. }
  assert (Tx : taken r t x u v) by (split; [exact EI|exact X0]).
  destruct (xltb (X x) (fst st)) eqn:EL.
  - right. exists i, t, x, u, v. split; [reflexivity|]. split; [lia|]. split; [exact Et|]. split; [exact Tx|]. intros j t' x' u' v' Hj Ej Tj.
    destruct (Nat.eq_dec j i) as [->|]; [rewrite Et in Ej; injection Ej as <-; destruct Tj as [Q _]; rewrite EI in Q; injection Q as <- _ _; split; [lra|lia]|].
    destruct Ok as [[-> No]|(i0 & t0 & x0 & u0 & v0 & -> & Hi0 & Et0 & T0 & No)]; [exfalso; apply (No j t' x' u' v'); [lia|easy|easy]|].
    destruct (No j t' x' u' v' ltac:(lia) Ej Tj) as [Q _]. cbn [fst xltb] in EL. apply Rltb_true in EL. split; [lra|intros _; lra].
  - apply Stay. intros x' u' v' [Q _]. rewrite EI in Q. injection Q as <- <- <-. destruct Ok as [[-> _]|(i0 & t0 & x0 & u0 & v0 & -> & _)]; cbn [fst xltb] in *; [discriminate|]. now apply Rltb_false in EL.
Qed.

(** Set and the ray query without SIMD, three floats per vertex: the nearest hit, of several the first; the triangles are enlarged by 1/10000 in barycentric terms. *)
Theorem C105_cpp_ray (cap : simd) (m0 : mesh xr) (rcp : xr -> xr) (r : ray R) (ts : list (triangle R)) (src : list xr) :
  cap = SIMD_NONE \/ cap = SIMD_SSE -> holds src 3 (map xtri ts) ->
  exists m d out, Mesh_Set cap m0 src (length ts) 12 = Some m /\ Mesh_IntersectRay rcp cap m (xray r) = Some (d, out) /\
    (out = None -> d = XP) /\
    (forall i u v, out = Some (i, u, v) -> exists t x u' v', nth_error ts i = Some t /\ d = X x /\ u = X u' /\ v = X v' /\ 0 <= x /\
      in_enlarged t tol (along (rpos r) (rdir r) x) /\ along (rpos r) (rdir r) x = bary t (1 - u' - v') u' v' /\ tol < Rabs (tri_det t (rdir r))) /\
    (forall j t y, nth_error ts j = Some t -> tol < Rabs (tri_det t (rdir r)) -> ray_hits r t y ->
      exists x i u v, d = X x /\ out = Some (i, u, v) /\ x <= y /\ ((j < i)%nat -> x < y)).
Proof.
  intros Cap H. exists (Mesh (firstn (9 * length ts) src) (length ts) 12).
  assert (Es : Mesh_Set cap m0 src (length ts) 12 = Some (Mesh (firstn (9 * length ts) src) (length ts) 12)).
  { replace (Mesh_Set cap m0 src (length ts) 12) with (SetAoS src (length ts) 12) by (destruct Cap as [-> | ->]; reflexivity). unfold SetAoS, floatBytes.
    replace (length ts * 3 * 12 / 4)%nat with (9 * length ts)%nat by (replace (length ts * 3 * 12)%nat with (9 * length ts * 4)%nat by lia; rewrite Nat.div_mul; lia).
    destruct (Nat.leb_spec (9 * length ts) (length src)) as [L|L]; [reflexivity|]. exfalso. destruct ts as [|t0 ts0] using rev_ind; [cbn in L; lia|].
    rewrite app_length in L. cbn [length] in L. assert (Q : nth_error (map xtri (ts0 ++ [t0])) (length ts0) = Some (xtri t0)).
    { apply map_nth. exists t0. split; [|reflexivity]. rewrite nth_error_app2 by lia. now rewrite Nat.sub_diag. }
    specialize (H _ _ 2%nat 2%nat Q ltac:(lia) ltac:(lia)). assert (B : ((3 * length ts0 + 2) * 3 + 2 < length src)%nat) by (apply nth_error_Some; rewrite H; discriminate). lia. }
  rewrite Es.
  destruct (cpp_loop_ok r ts (firstn (9 * length ts) src)) with (n := length ts) (i := 0%nat) (st := (@ninf xr _ _, @None (nat * xr * xr))) as ([d out] & E & Ok).
  { apply holds_firstn; [now rewrite map_length|exact H]. }
  { lia. }
  { left. split; [reflexivity|lia]. }
  exists d, out. split; [reflexivity|]. split.
  { replace (Mesh_IntersectRay rcp cap _ _) with (IntersectRay_CPP (Mesh (firstn (9 * length ts) src) (length ts) 12) (xray r)) by (destruct Cap as [-> | ->]; reflexivity). exact E. }
  assert (Hit : forall t y, tol < Rabs (tri_det t (rdir r)) -> ray_hits r t y -> exists u v, taken r t y u v).
  { intros t y Dt [Y I]. destruct (LineTri_complete _ _ _ _ Dt I) as (u & v & Q & _). exists u, v. now split. }
  destruct Ok as [[Eo No]|(i & t & x & u & v & Eo & Hi & Et & A & No)]; injection Eo as -> ->.
  - split; [reflexivity|]. split; [discriminate|]. intros j t y Ej Dt Hy. destruct (Hit t y Dt Hy) as (u & v & Q). exfalso. apply (No j t y u v); [apply nth_error_Some; congruence|easy|easy].
  - split; [discriminate|]. split.
    + intros i' u1 v1 Q. injection Q as <- <- <-. destruct A as [A X0]. apply LineTri_sound in A. exists t, x, u, v. split; [exact Et|]. split; [reflexivity|]. split; [reflexivity|]. split; [reflexivity|]. split; [exact X0|]. exact A.
    + intros j t' y Ej Dt Hy. destruct (Hit t' y Dt Hy) as (u' & v' & Q). exists x, i, (X u), (X v). split; [reflexivity|]. split; [reflexivity|]. apply (No j t' y u' v'); [apply nth_error_Some; congruence|exact Ej|exact Q].
Qed.
Print Assumptions C105_cpp_ray.

(** Set never stores anything once a SIMD layout is in use: it passes on the triangle count and vertex size the mesh had before, and these are zero in
    a new mesh.  So however often Set is called, no ray hits the mesh. *)
Theorem C105_set_simd_actual (cap : simd) (rcp : xr -> xr) (m : mesh xr) (src : list xr) (n vb : nat) (r : ray xr) :
  cap = SIMD_SSE2 \/ cap = SIMD_SSE41 \/ cap = SIMD_AVX -> m_num m = 0%nat ->
  exists m', Mesh_Set cap m src n vb = Some m' /\ m_num m' = 0%nat /\ Mesh_IntersectRay rcp cap m' r = Some (XP, None).
Proof.
  intros C Z. exists (Mesh [] 0 12). destruct C as [-> | [-> | ->]]; cbn [Mesh_Set]; rewrite Z; (split; [reflexivity|split; reflexivity]).
Qed.
Print Assumptions C105_set_simd_actual.

(** The triangle SetConvex pads with wipes out the nearest hit its lane had found so far. *)
Theorem C105_padding_actual (rcp : xr -> xr) (flat : xr -> xr -> bool) (r : ray R) (i : nat) (near : lane xr) :
  flat = nleb \/ flat = nltb ->
  lane_step rcp flat (xray r) i XM XM XM (XM - XM)%num (XM - XM)%num (XM - XM)%num (XM - XM)%num (XM - XM)%num (XM - XM)%num near = Lane XNaN XNaN XNaN (Some i).
Proof.
  intros F. unfold lane_step. cbn. destruct (l_d near), F as [-> | ->]; reflexivity.
Qed.
Print Assumptions C105_padding_actual.
