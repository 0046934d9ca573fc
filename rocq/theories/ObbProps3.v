(** C51 continued: corners, edges, faces, local coordinates, growing, transforms, lines, triangles, volume. *)
From Coq Require Import Reals Psatz List Bool Permutation.
From Verif Require Import Num NumR ScalarModel ScalarProofs Vec3Model GeoTypes GeoSpec GeoLemmas Vec3Props AabbModel AabbSpec AabbProofs AabbProps AabbProps2 MatModel MatSpec MatProofs MatProofs2 LineModel LineSpec LineProofs LineProofs2 LineProps
  RotModel RotSpec RotProofs PlaneModel PlaneSpec PlaneProps PlaneProps2 PlaneProps4 SphereModel SphereSpec SphereProps SphereProps2 SphereProps3 TriangleModel TriangleSpec TriangleProps TriangleProps3 TriangleProps7 SatModel SatTheory SatProps CircleModel CircleProps CapsuleModel CapsuleProps CapsuleProps3 ObbModel ObbProps ObbProps2.
Import ListNotations.
Open Scope R_scope.
Ltac Zify.zify_post_hook ::= idtac.

(** ** Points of the box, its edges and its faces *)
Theorem C51_point_inside (o : obb R) : obb_ok o -> forall p, in_obb o p <-> exists x y z, 0 <= x <= 1 /\ 0 <= y <= 1 /\ 0 <= z <= 1 /\ p = OBB_PointInside o x y z.
Proof.
  intros (X & Y & Z) p. assert (E : forall x y z, OBB_PointInside o x y z = at_ o (- vx (orad o) + x * (vx (orad o) - - vx (orad o))) (- vy (orad o) + y * (vy (orad o) - - vy (orad o))) (- vz (orad o) + z * (vz (orad o) - - vz (orad o)))).
  { intros. unfold OBB_PointInside, at_. vunf. gunf. rsimpl. apply vec_ext; cbn [vx vy vz]; ring. }
  split.
  - intros (x & y & z & Hx & Hy & Hz & ->). fold (at_ o x y z). apply interp in Hx, Hy, Hz. destruct Hx as (i & I & ->), Hy as (j & J & ->), Hz as (k & K & ->). exists i, j, k. rewrite E. tauto.
  - intros (x & y & z & Hx & Hy & Hz & ->). rewrite E. apply in_obb_at; nra.
Qed.
Print Assumptions C51_point_inside.
(** The pairs of corners joined by an edge: those whose numbers differ in one bit. *)
Definition one_bit (u v : nat) : Prop := (u < 8)%nat /\ (v < 8)%nat /\ exists b, (v = u + Nat.pow 2 b)%nat /\ Nat.testbit u b = false.
Definition edge_ends (i : nat) : nat * nat := nth i [(0,1);(0,2);(0,4);(1,3);(1,5);(2,3);(2,6);(3,7);(4,5);(4,6);(5,7);(6,7)]%nat (0,0)%nat.
Theorem C51_edges (o : obb R) : 
  (forall i, (i < 12)%nat -> exists u v, one_bit u v /\ OBB_Edge o i = Seg (OBB_CornerPoint o u) (OBB_CornerPoint o v)) /\
  (forall u v, one_bit u v -> exists i, (i < 12)%nat /\ OBB_Edge o i = Seg (OBB_CornerPoint o u) (OBB_CornerPoint o v)) /\
  OBB_ToEdgeList o = flat_map (fun i => [seg_a (OBB_Edge o i); seg_b (OBB_Edge o i)]) (seq 0 12).
Proof.
  split; [|split; [|reflexivity]].
  - intros i I. do 12 (destruct i as [|i]; [unfold OBB_Edge; cbv zeta; eexists _, _; split; [|reflexivity]; repeat split; try Lia.lia; first [now exists 0%nat|now exists 1%nat|now exists 2%nat]|]). Lia.lia.
  - intros u v (U & V & b & -> & B). assert (H : (b < 3)%nat). { destruct (Compare_dec.lt_dec b 3) as [L|L]; [exact L|exfalso]. assert (2 ^ 3 <= 2 ^ b)%nat by (apply Nat.pow_le_mono_r; Lia.lia). cbn in H. Lia.lia. }
    destruct b as [|[|[|b]]]; [| | |Lia.lia]; destruct u as [|[|[|[|[|[|[|[|u]]]]]]]]; try Lia.lia; try (cbn in B; discriminate B); cbn [Nat.pow Nat.mul Nat.add];
    first [exists 0%nat; split; [Lia.lia|reflexivity]|exists 1%nat; split; [Lia.lia|reflexivity]|exists 2%nat; split; [Lia.lia|reflexivity]|exists 3%nat; split; [Lia.lia|reflexivity]
      |exists 4%nat; split; [Lia.lia|reflexivity]|exists 5%nat; split; [Lia.lia|reflexivity]|exists 6%nat; split; [Lia.lia|reflexivity]|exists 7%nat; split; [Lia.lia|reflexivity]
      |exists 8%nat; split; [Lia.lia|reflexivity]|exists 9%nat; split; [Lia.lia|reflexivity]|exists 10%nat; split; [Lia.lia|reflexivity]|exists 11%nat; split; [Lia.lia|reflexivity]].
Qed.
Print Assumptions C51_edges.
(** PointOnEdge walks along an edge, but numbers the edges differently from Edge. *)
Definition edge_number (i : nat) : nat := nth i [2;4;6;7;1;3;9;10;0;5;8;11]%nat 0%nat.
Lemma edge_number_perm : Permutation (map edge_number (seq 0 12)) (seq 0 12).
Proof. apply NoDup_Permutation; [|apply seq_NoDup|]. - cbn. repeat constructor; cbn; Lia.lia. - intros x. rewrite in_seq. cbn. Lia.lia. Qed.
Theorem C51_point_on_edge_actual (o : obb R) : Permutation (map edge_number (seq 0 12)) (seq 0 12) /\
  forall i u, (i < 12)%nat -> OBB_PointOnEdge o i u = plus (seg_a (OBB_Edge o (edge_number i))) (scale u (minus (seg_b (OBB_Edge o (edge_number i))) (seg_a (OBB_Edge o (edge_number i))))).
Proof.
  split; [apply edge_number_perm|]. intros i u I.
  do 12 (destruct i as [|i]; [cbn [edge_number nth]; unfold OBB_PointOnEdge, OBB_Edge, OBB_CornerPoint; cbv zeta; cbn [seg_a seg_b]; vunf; gunf; rsimpl; apply vec_ext; cbn [vx vy vz]; ring|]). Lia.lia.
Qed.
Print Assumptions C51_point_on_edge_actual.
Theorem C51_edge_numbering_refuted : exists (o : obb R) i, (i < 12)%nat /\ framed o /\ OBB_PointOnEdge o i (1/2) <> scale (1/2) (plus (seg_a (OBB_Edge o i)) (seg_b (OBB_Edge o i))).
Proof.
  exists (Obb (V3 0 0 0) (V3 1 1 1) (V3 1 0 0) (V3 0 1 0) (V3 0 0 1)), 0%nat. split; [Lia.lia|]. split; [apply std_framed|]. intros E. apply (f_equal vx) in E. unfold OBB_PointOnEdge, OBB_Edge, OBB_CornerPoint in E. cbv zeta in E. revert E. vunf. gunf. cbn. lra.
Qed.
(** Faces: the plane of face [i] bounds the box and touches it in the face; FacePoint sweeps the face, again in a different numbering. *)
Definition face_number (i : nat) : nat := nth i [4;5;0;1;2;3]%nat 0%nat.
Lemma face_height o i p : framed o -> (i < 6)%nat -> dot (pnormal (OBB_FacePlane o i)) p - pd (OBB_FacePlane o i) =
  match i with 0 => - crd0 o p | 1 => crd0 o p | 2 => - crd1 o p | 3 => crd1 o p | 4 => - crd2 o p | _ => crd2 o p end%nat - match i with 0 | 1 => vx (orad o) | 2 | 3 => vy (orad o) | _ => vz (orad o) end%nat.
Proof.
  intros (U0 & U1 & U2 & _) I. unfold unitv in *.
  do 2 (destruct i as [|i]; [match goal with |- _ = ?a - ?r => transitivity (a - r * dot (oaxis0 o) (oaxis0 o)); [|rewrite U0; ring] end; unfold OBB_FacePlane, OBB_FaceCenterPoint, Plane_Set, crd0; cbv zeta; cbn [pnormal pd]; vunf; gunf; rsimpl; ring|]).
  do 2 (destruct i as [|i]; [match goal with |- _ = ?a - ?r => transitivity (a - r * dot (oaxis1 o) (oaxis1 o)); [|rewrite U1; ring] end; unfold OBB_FacePlane, OBB_FaceCenterPoint, Plane_Set, crd1; cbv zeta; cbn [pnormal pd]; vunf; gunf; rsimpl; ring|]).
  do 2 (destruct i as [|i]; [match goal with |- _ = ?a - ?r => transitivity (a - r * dot (oaxis2 o) (oaxis2 o)); [|rewrite U2; ring] end; unfold OBB_FacePlane, OBB_FaceCenterPoint, Plane_Set, crd2; cbv zeta; cbn [pnormal pd]; vunf; gunf; rsimpl; ring|]). Lia.lia.
Qed.
Lemma face_center_R (o : obb R) i : (i < 6)%nat -> OBB_FaceCenterPoint o i = match i with 0 => at_ o (- vx (orad o)) 0 0 | 1 => at_ o (vx (orad o)) 0 0 | 2 => at_ o 0 (- vy (orad o)) 0 | 3 => at_ o 0 (vy (orad o)) 0 | 4 => at_ o 0 0 (- vz (orad o)) | _ => at_ o 0 0 (vz (orad o)) end%nat.
Proof. intros I. do 6 (destruct i as [|i]; [unfold OBB_FaceCenterPoint, at_; vunf; gunf; rsimpl; apply vec_ext; cbn [vx vy vz]; ring|]). Lia.lia. Qed.
Lemma face_point_R (o : obb R) i u v : (i < 6)%nat -> let s r x := - r + x * (r - - r) in
  OBB_FacePoint o i u v = match i with 0 => at_ o (s (vx (orad o)) u) (s (vy (orad o)) v) (- vz (orad o)) | 1 => at_ o (s (vx (orad o)) u) (s (vy (orad o)) v) (vz (orad o))
    | 2 => at_ o (- vx (orad o)) (s (vy (orad o)) u) (s (vz (orad o)) v) | 3 => at_ o (vx (orad o)) (s (vy (orad o)) u) (s (vz (orad o)) v)
    | 4 => at_ o (s (vx (orad o)) v) (- vy (orad o)) (s (vz (orad o)) u) | _ => at_ o (s (vx (orad o)) v) (vy (orad o)) (s (vz (orad o)) u) end%nat.
Proof. intros I s. unfold s. do 6 (destruct i as [|i]; [unfold OBB_FacePoint, at_; cbv zeta; vunf; gunf; rsimpl; apply vec_ext; cbn [vx vy vz]; ring|]). Lia.lia. Qed.
Theorem C51_faces (o : obb R) (i : nat) : framed o -> obb_ok o -> (i < 6)%nat -> let P := OBB_FacePlane o i in
  unitv (pnormal P) /\ in_obb o (OBB_FaceCenterPoint o i) /\ on_plane P (OBB_FaceCenterPoint o i) /\ (forall p, in_obb o p -> dot (pnormal P) p <= pd P) /\
  forall p, in_obb o p /\ on_plane (OBB_FacePlane o (face_number i)) p <-> exists u v, 0 <= u <= 1 /\ 0 <= v <= 1 /\ p = OBB_FacePoint o i u v.
Proof.
  intros F K I P. pose proof K as (X & Y & Z). assert (on_h : forall j p, on_plane (OBB_FacePlane o j) p <-> dot (pnormal (OBB_FacePlane o j)) p - pd (OBB_FacePlane o j) = 0) by (intros; unfold on_plane; split; lra).
  split; [|split; [|split; [|split]]].
  - pose proof F as (U0 & U1 & U2 & _). unfold P, unitv in *. do 6 (destruct i as [|i]; [unfold OBB_FacePlane, Plane_Set; cbv zeta; cbn [pnormal]; first [assumption|match goal with |- dot (vneg ?a) _ = _ => transitivity (dot a a); [vunf; gunf; ring|assumption] end]|]). Lia.lia.
  - rewrite face_center_R by exact I. do 6 (destruct i as [|i]; [apply in_obb_at; lra|]). Lia.lia.
  - unfold P. apply on_h. rewrite face_height, face_center_R by assumption.
    do 2 (destruct i as [|i]; [match goal with |- context [at_ o ?a ?b ?c] => rewrite (proj1 (crd_at o a b c F)); ring end|]). 
    do 2 (destruct i as [|i]; [match goal with |- context [at_ o ?a ?b ?c] => rewrite (proj1 (proj2 (crd_at o a b c F))); ring end|]).
    do 2 (destruct i as [|i]; [match goal with |- context [at_ o ?a ?b ?c] => rewrite (proj2 (proj2 (crd_at o a b c F))); ring end|]). Lia.lia.
  - intros p H. apply (in_obb_crd o p F) in H. unfold within_r in H. pose proof (face_height o i p F I) as E. fold P in E. do 6 (destruct i as [|i]; [lra|]). Lia.lia.
  - intros p. rewrite on_h, (in_obb_crd o p F). unfold within_r. split.
    + intros [(Hx & Hy & Hz) E]. rewrite face_height in E by (try exact F; do 6 (destruct i as [|i]; [cbn; Lia.lia|]); Lia.lia). rewrite <- (at_crd o p F).
      do 6 (destruct i as [|i]; [cbn [face_number nth] in E;
        first [apply interp in Hx, Hy; destruct Hx as (u & Hu & Eu), Hy as (v & Hv & Ev); exists u, v; split; [exact Hu|]; split; [exact Hv|]; rewrite face_point_R by exact I; cbv zeta; rewrite Eu, Ev; f_equal; lra
              |apply interp in Hy, Hz; destruct Hy as (u & Hu & Eu), Hz as (v & Hv & Ev); exists u, v; split; [exact Hu|]; split; [exact Hv|]; rewrite face_point_R by exact I; cbv zeta; rewrite Eu, Ev; f_equal; lra
              |apply interp in Hx, Hz; destruct Hx as (v & Hv & Ev), Hz as (u & Hu & Eu); exists u, v; split; [exact Hu|]; split; [exact Hv|]; rewrite face_point_R by exact I; cbv zeta; rewrite Eu, Ev; f_equal; lra]|]). Lia.lia.
    + intros (u & v & U & V & ->). rewrite face_height by (try exact F; do 6 (destruct i as [|i]; [cbn; Lia.lia|]); Lia.lia). rewrite face_point_R by exact I. cbv zeta.
      do 6 (destruct i as [|i]; [cbn [face_number nth]; match goal with |- context [at_ o ?a ?b ?c] => destruct (crd_at o a b c F) as (-> & -> & ->) end; nra|]). Lia.lia.
Qed.
Print Assumptions C51_faces.
Theorem C51_face_numbering_refuted : exists (o : obb R) i, (i < 6)%nat /\ framed o /\ obb_ok o /\ OBB_FacePoint o i (1/2) (1/2) <> OBB_FaceCenterPoint o i /\ ~ on_plane (OBB_FacePlane o i) (OBB_FacePoint o i (1/2) (1/2)).
Proof.
  set (o := Obb (V3 0 0 0) (V3 1 1 1) (V3 1 0 0) (V3 0 1 0) (V3 0 0 1) : obb R). exists o, 0%nat. split; [Lia.lia|]. split; [apply std_framed|]. split; [unfold obb_ok; cbn; lra|]. split.
  - intros E. apply (f_equal vx) in E. unfold OBB_FacePoint, OBB_FaceCenterPoint in E. cbv zeta in E. revert E. vunf. cbn. lra.
  - unfold on_plane, OBB_FacePlane, OBB_FacePoint, OBB_FaceCenterPoint, Plane_Set. cbv zeta. vunf. cbn. unfold dot. cbn. lra.
Qed.
Print Assumptions C51_face_numbering_refuted.
