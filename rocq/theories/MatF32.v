(** The Cholesky finding in binary32 arithmetic, as the code runs it. *)
From Coq Require Import ZArith Bool List.
From Coq Require Import Floats.SpecFloat.
From Flocq Require Import Core.Core IEEE754.BinarySingleNaN.
From Verif Require Import Num ScalarModel Vec3Model GeoTypes GMatModel GMatProofs MatModel F32.

Theorem C33_Cholesky_f32_refuted (n : nat) (A : gmat f32) : (2 <= n)%nat -> fst (CholeskyDecomposeMatrix n A) = false.
Proof.
  apply Cholesky_fails_gen. intros x E. destruct x as [s|s| |s m e B].
  - destruct s; vm_compute; reflexivity.
  - destruct s; vm_compute in E; discriminate E.
  - vm_compute in E; discriminate E.
  - destruct s; vm_compute in E; discriminate E.
Qed.
Print Assumptions C33_Cholesky_f32_refuted.
Theorem C33_CholeskyDecompose_f32_refuted (A : mat4 f32) : fst (CholeskyDecompose A) = false.
Proof.
  unfold CholeskyDecompose. pose proof (C33_Cholesky_f32_refuted 4 (g4 A)) as C. destruct (CholeskyDecomposeMatrix 4 (g4 A)). apply C. repeat constructor.
Qed.
Print Assumptions C33_CholeskyDecompose_f32_refuted.
