(** What the face lists of a polyhedron should satisfy, stated from the indices alone. *)
From Coq Require Import ZArith List Sorted Permutation.
Import ListNotations.
Local Open Scope Z_scope.

(** The directed edges of a face: from each vertex to the next one, cyclically. *)
Definition directed (f : list Z) : list (Z * Z) := map (fun i => (nth i f 0, nth (Nat.modulo (i + 1) (length f)) f 0)) (seq 0 (length f)).
Definition all_directed (fs : list (list Z)) : list (Z * Z) := flat_map directed fs.
(** Every directed edge is used once and its reverse is used too. *)
Definition closed (fs : list (list Z)) : Prop := NoDup (all_directed fs) /\ forall a b, In (a, b) (all_directed fs) -> In (b, a) (all_directed fs).
(** Faces with at least three different vertices, all of them existing. *)
Definition valid (nv : nat) (fs : list (list Z)) : Prop := forall f, In f fs -> (3 <= length f)%nat /\ NoDup f /\ forall x, In x f -> 0 <= x < Z.of_nat nv.
(** Vertices minus edges plus faces. *)
Definition euler (nv : nat) (fs : list (list Z)) : Prop := (nv + length fs = length (all_directed fs) / 2 + 2)%nat.
(** Two faces that differ by a cyclic shift. *)
Definition same_cycle (f g : list Z) : Prop := exists l1 l2, f = l1 ++ l2 /\ g = l2 ++ l1.
(** The lexicographic order on pairs. *)
Definition lex (a b : Z * Z) : Prop := fst a < fst b \/ (fst a = fst b /\ snd a < snd b).
