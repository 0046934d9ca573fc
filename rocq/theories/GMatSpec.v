(** Square matrices over R, of any size: the vocabulary of the specifications of the matrix functions.
    A matrix is its element function; only the elements below the size count. *)
From Coq Require Import Reals PeanoNat.
Open Scope R_scope.

Definition rmat := nat -> nat -> R.
(** f 0 + ... + f (n-1). *)
Fixpoint sumn (n : nat) (f : nat -> R) : R := match n with O => 0 | S m => sumn m f + f m end.
(** The usual product. *)
Definition mprod (n : nat) (A B : rmat) : rmat := fun i j => sumn n (fun k => A i k * B k j).
Definition kron (i j : nat) : R := if Nat.eqb i j then 1 else 0.
Definition mtrans (A : rmat) : rmat := fun i j => A j i.
(** Equality of the elements that exist. *)
Definition meq (n : nat) (A B : rmat) : Prop := forall i j, (i < n)%nat -> (j < n)%nat -> A i j = B i j.
(** B is the two-sided inverse of A. *)
Definition inverse_of (n : nat) (A B : rmat) : Prop := meq n (mprod n A B) kron /\ meq n (mprod n B A) kron.
Definition invertible (n : nat) (A : rmat) : Prop := exists B, inverse_of n A B.
(** Triangular shapes. *)
Definition unit_lower (n : nat) (L : rmat) : Prop :=
  forall i j, (i < n)%nat -> (j < n)%nat -> (i = j -> L i j = 1) /\ ((i < j)%nat -> L i j = 0).
Definition upper_triangular (n : nat) (U : rmat) : Prop := forall i j, (i < n)%nat -> (j < n)%nat -> (j < i)%nat -> U i j = 0.
