(** C105: triangle meshes in binary32: cases where a ray query loses a hit, and a mesh that meets the hypotheses of the theorems. *)
From Coq Require Import Reals Lra Psatz ZArith Bool List Arith Lia Floats.SpecFloat.
From Flocq Require Import Core.Core IEEE754.BinarySingleNaN.
From Verif Require Import Num NumR XNum F32 ScalarModel ScalarProofs Vec3Model GeoTypes GMatProofs GeoSpec GeoLemmas AabbSpec LineModel
  TriangleModel TriangleSpec TriangleProps TriangleProps2 KdTreeModel TriMeshModel TriMeshSpec TriMeshProofs TriMeshProps TriMeshProps2 TriMeshProps3.
Import ListNotations.
Ltac Zify.zify_post_hook ::= idtac.

(** The usual array of a list of triangles: nine floats each; or with [pad] unused floats after each vertex. *)
Definition flat_vertex {T} (pad : list T) (p : vec T) : list T := [vx p; vy p; vz p] ++ pad.
Definition flat_tri {T} (pad : list T) (t : triangle T) : list T := flat_vertex pad (tri_a t) ++ flat_vertex pad (tri_b t) ++ flat_vertex pad (tri_c t).
Lemma flat_holds {T} (pad : list T) (ts : list (triangle T)) : holds (flat_map (flat_tri pad) ts) (3 + length pad) ts.
Proof.
  intros i t j k Et Hj Hk. revert i Et. induction ts as [|t0 ts IH]; intros [|i] Et; try discriminate.
  - injection Et as ->. cbn [flat_map]. rewrite nth_error_app1 by (unfold flat_tri, flat_vertex; rewrite !app_length; cbn [length]; nia).
    assert (V : forall p : vec T, nth_error (flat_vertex pad p) k = Some (axis p k)) by (intros p; destruct k as [|[|[|k]]]; try reflexivity; lia).
    assert (L : forall p : vec T, length (flat_vertex pad p) = (3 + length pad)%nat) by reflexivity.
    unfold flat_tri. destruct j as [|[|[|j]]]; [| | |lia].
    + rewrite nth_error_app1 by (rewrite L; lia). apply V.
    + rewrite nth_error_app2 by (rewrite L; lia). rewrite nth_error_app1 by (rewrite !L; lia). rewrite L. replace ((3 * 0 + 1) * (3 + length pad) + k - (3 + length pad))%nat with k by lia. apply V.
    + rewrite nth_error_app2 by (rewrite L; lia). rewrite nth_error_app2 by (rewrite !L; lia). rewrite !L. replace ((3 * 0 + 2) * (3 + length pad) + k - (3 + length pad) - (3 + length pad))%nat with k by lia. apply V.
  - cbn [flat_map]. replace ((3 * S i + j) * (3 + length pad) + k)%nat with (length (flat_tri pad t0) + ((3 * i + j) * (3 + length pad) + k))%nat by (unfold flat_tri, flat_vertex; rewrite !app_length; cbn [length]; lia).
    rewrite (nth_error_r _ _ _ (length (flat_tri pad t0))) by reflexivity. apply IH, Et.
Qed.

Definition f (z : Z) : f32 := nlit z 1.
Definition ftri (z : Z) (x : Z) : triangle f32 := Tri (V3 (f x) (f 0) (f z)) (V3 (f (x + 4)) (f 0) (f z)) (V3 (f x) (f 4) (f z)).
(** Five triangles; the ray hits only the second, at distance 1. *)
Definition fmesh : list (triangle f32) := [ftri 1 10; ftri 1 0; ftri 1 20; ftri 1 30; ftri 1 40].
Definition fray : ray f32 := Ry (V3 (f 1) (f 1) (f 0)) (V3 (f 0) (f 0) (f 1)).
Definition frcp (x : f32) : f32 := (n1 / x)%num.
Definition is_inf (d : f32) : bool := match d with B754_infinity false => true | _ => false end.
Lemma is_inf_eq d : is_inf d = true -> d = ninf.
Proof. destruct d as [| [|] | |]; try discriminate. reflexivity. Qed.
Definition no_hit (q : option (hit_result f32)) : bool := match q with Some (d, None) => is_inf d | _ => false end.
Lemma no_hit_eq q : no_hit q = true -> q = Some (ninf, None).
Proof. destruct q as [[d [?|]]|]; try discriminate. cbn. intros H. now rewrite (is_inf_eq _ H). Qed.
Definition hit_at (n : nat) (q : option (hit_result f32)) : bool := match q with Some (d, Some (i, u, v)) => (d =? f 1)%num && (i =? n)%nat && (u =? nlit 1 4)%num && (v =? nlit 1 4)%num | _ => false end.
Lemma hit_at_eq n q : hit_at n q = true -> exists d u v, q = Some (d, Some (n, u, v)) /\ (d =? f 1)%num = true /\ (u =? nlit 1 4)%num = true /\ (v =? nlit 1 4)%num = true.
Proof.
  destruct q as [[d [[[i u] v]|]]|]; try discriminate. cbn [hit_at]. rewrite !andb_true_iff. intros [[[A B] C] D]. apply Nat.eqb_eq in B. subst i. exists d, u, v. auto.
Qed.
Definition run {A} (b : A -> bool) (o : option A) : bool := match o with Some m => b m | None => false end.
Lemma run_eq {A} (b : A -> bool) o : run b o = true -> exists m, o = Some m /\ b m = true.
Proof. destruct o as [m|]; [|discriminate]. intros H. now exists m. Qed.
(** The padding of SetConvex makes the lane-wise query miss a triangle that the plain query finds at distance 1. *)
Theorem C105_padding_refuted : exists (ts : list (triangle f32)) (r : ray f32) m4 m8 m d u v,
  SetSoA 4 (flat_map (flat_tri []) (pad_triangles 4 ts)) (length (pad_triangles 4 ts)) 12 = Some m4 /\ IntersectRay_SoA 4 frcp nleb m4 r = Some (ninf, None) /\
  SetSoA 8 (flat_map (flat_tri []) (pad_triangles 8 (ts ++ repeat (ftri 1 10) 4))) (length (pad_triangles 8 (ts ++ repeat (ftri 1 10) 4))) 12 = Some m8 /\
  IntersectRay_SoA 8 frcp nltb m8 r = Some (ninf, None) /\
  SetAoS (flat_map (flat_tri []) ts) (length ts) 12 = Some m /\ IntersectRay_CPP m r = Some (d, Some (1%nat, u, v)) /\ (d =? f 1)%num = true.
Proof.
  exists fmesh, fray.
  destruct (run_eq (fun m => no_hit (IntersectRay_SoA 4 frcp nleb m fray)) (SetSoA 4 (flat_map (flat_tri []) (pad_triangles 4 fmesh)) (length (pad_triangles 4 fmesh)) 12)) as (m4 & E4 & H4); [vm_compute; reflexivity|].
  destruct (run_eq (fun m => no_hit (IntersectRay_SoA 8 frcp nltb m fray)) (SetSoA 8 (flat_map (flat_tri []) (pad_triangles 8 (fmesh ++ repeat (ftri 1 10) 4))) (length (pad_triangles 8 (fmesh ++ repeat (ftri 1 10) 4))) 12)) as (m8 & E8 & H8); [vm_compute; reflexivity|].
  destruct (run_eq (fun m => hit_at 1 (IntersectRay_CPP m fray)) (SetAoS (flat_map (flat_tri []) fmesh) (length fmesh) 12)) as (m & E & H); [vm_compute; reflexivity|].
  apply no_hit_eq in H4. apply no_hit_eq in H8. apply hit_at_eq in H. destruct H as (d & u & v & H & D & _).
  exists m4, m8, m, d, u, v. split; [exact E4|]. split; [exact H4|]. split; [exact E8|]. split; [exact H8|]. split; [exact E|]. split; [exact H|exact D].
Qed.
Print Assumptions C105_padding_refuted.
Definition smesh : list (triangle f32) := [ftri 1 10; ftri 1 0; ftri 1 10; ftri 1 10].
(** With four floats per vertex the plain query reads the array as if there were three, and misses; the lane-wise one finds the hit. *)
Theorem C105_stride_refuted : exists (ts : list (triangle f32)) (src : list f32) (r : ray f32) m m4 d u v,
  holds src 4 ts /\ SetAoS src (length ts) 16 = Some m /\ IntersectRay_CPP m r = Some (ninf, None) /\
  SetSoA 4 src (length ts) 16 = Some m4 /\ IntersectRay_SoA 4 frcp nleb m4 r = Some (d, Some (1%nat, u, v)) /\ (d =? f 1)%num = true.
Proof.
  exists smesh, (flat_map (flat_tri [f 100]) smesh), fray.
  destruct (run_eq (fun m => no_hit (IntersectRay_CPP m fray)) (SetAoS (flat_map (flat_tri [f 100]) smesh) (length smesh) 16)) as (m & E & H); [vm_compute; reflexivity|].
  destruct (run_eq (fun m => hit_at 1 (IntersectRay_SoA 4 frcp nleb m fray)) (SetSoA 4 (flat_map (flat_tri [f 100]) smesh) (length smesh) 16)) as (m4 & E4 & H4); [vm_compute; reflexivity|].
  apply no_hit_eq in H. apply hit_at_eq in H4. destruct H4 as (d & u & v & H4 & D & _). exists m, m4, d, u, v. split; [apply (flat_holds [f 100])|]. repeat (split; [assumption|]). assumption.
Qed.
Print Assumptions C105_stride_refuted.

Open Scope R_scope.
Definition rtri (z x : R) : triangle R := Tri (V3 x 0 z) (V3 (x + 4) 0 z) (V3 x 4 z).
Definition rmesh : list (triangle R) := [rtri 5 0; rtri 2 10; rtri 1 0; rtri 3 0].
Definition rray : ray R := Ry (V3 1 1 0) (V3 0 0 1).
Definition xrcp (x : xr) : xr := xdiv (X 1) x.
Example C105_soa_witness : exists m x i u v, SetSoA 4 (flat_map (flat_tri []) (map xtri rmesh)) 4 12 = Some m /\
  IntersectRay_SoA 4 xrcp nleb m (xray rray) = Some (X x, Some (i, u, v)) /\ 0 <= x <= 1.
Proof.
  destruct (C105_soa_exact 4 xrcp nleb rray rmesh (flat_map (flat_tri []) (map xtri rmesh)) 3) as (m & d & out & Es & Er & N & S & C); [lia|lia| |now left|apply (flat_holds [])|].
  { intros D HD. unfold xrcp, xdiv. destruct (Req_EM_T D 0); [easy|reflexivity]. }
  destruct (C 2%nat (rtri 1 0) 1) as (x & -> & L); [cbn; lia|reflexivity|unfold tol, tri_det, rtri; gunf; cbn; unfold Rabs; destruct Rcase_abs; lra|split; [lra|]; exists (1/2), (1/4), (1/4); unfold rtri; cbn [tri_a tri_b tri_c]; repeat split; try lra; apply vec_ext; gunf; cbn; lra|].
  destruct out as [[[i u] v]|]; [|discriminate (N eq_refl)]. exists m, x, i, u, v. split; [exact Es|]. split; [exact Er|].
  destruct (S i u v eq_refl) as (t & x' & u' & v' & _ & Q & _ & _ & [X0 _] & _). injection Q as <-. lra.
Qed.
Example C105_cpp_witness : exists m x i u v, Mesh_Set SIMD_NONE Mesh_empty (flat_map (flat_tri []) (map xtri rmesh)) 4 12 = Some m /\
  Mesh_IntersectRay xrcp SIMD_NONE m (xray rray) = Some (X x, Some (i, u, v)) /\ 0 <= x <= 1.
Proof.
  destruct (C105_cpp_ray SIMD_NONE Mesh_empty xrcp rray rmesh (flat_map (flat_tri []) (map xtri rmesh))) as (m & d & out & Es & Er & N & S & C); [now left|apply (flat_holds [])|].
  destruct (C 2%nat (rtri 1 0) 1) as (x & i & u & v & -> & -> & L & _); [reflexivity|unfold tol, tri_det, rtri; gunf; cbn; unfold Rabs; destruct Rcase_abs; lra|split; [lra|]; exists (1/2), (1/4), (1/4); unfold rtri; cbn [tri_a tri_b tri_c]; repeat split; try lra; apply vec_ext; gunf; cbn; lra|].
  exists m, x, i, u, v. split; [exact Es|]. split; [exact Er|]. destruct (S i u v eq_refl) as (t & x' & u' & v' & _ & Q & _ & _ & X0 & _). injection Q as <-. lra.
Qed.
