(** C101, continued: the normals of faces with one or two corners. *)
From Coq Require Import Reals List Lra ZArith.
From Verif Require Import Num NumR ScalarModel Vec3Model GeoTypes GeoSpec GeoLemmas Vec3Props PolyTopoModel PolyhedronModel PolyhedronSpec.
Import ListNotations.
Open Scope R_scope.
(** A face with two corners has a unit normal, at right angles to its edge unless the computed product is shorter than 1e-6 and (1, 0, 0) is returned; a face with one corner has the normal (0, 1, 0); one with none has no normal. *)
Theorem C101_small_faces (P : polyhedron R) (i j : Z) : Hed_FaceNormal P [] = None /\ Hed_FaceNormal P [i] = Some (V3 0 1 0) /\
  exists a b n, Hed_FacePolygon P [i; j] = [a; b] /\ Hed_FaceNormal P [i; j] = Some n /\ unitv n /\ (orth (minus b a) n \/ n = V3 1 0 0).
Proof.
  split; [reflexivity|]. split; [reflexivity|]. unfold Hed_FaceNormal. unfold Hed_FacePolygon. cbn [map]. do 3 eexists. split; [reflexivity|]. split; [reflexivity|].
  match goal with |- context [Normalized (Cross ?x ?y)] => set (e := x); set (w := y) end. match goal with |- _ /\ (orth ?u _ \/ _) => change u with e end. destruct (C26_dot_cross e w w) as (O & _). unfold Normalized. rewrite Normalize_R. destruct (Rltb_spec eps6 (norm (Cross e w))) as [L|L]; cbn [fst].
  - split; [apply norm_unit, normalized_unit; unfold eps6 in L; lra|]. left. unfold orth in *. rewrite dot_scale_r, O. ring.
  - split; [unfold unitv, dot; cbn; ring|now right].
Qed.
Print Assumptions C101_small_faces.
Example C101_small_faces_witness : Hed_FacePolygon (Hed [V3 0 0 0; V3 1 0 0 : pt] [[0; 1]%Z]) [0; 1]%Z = [V3 0 0 0; V3 1 0 0]. Proof. reflexivity. Qed.
