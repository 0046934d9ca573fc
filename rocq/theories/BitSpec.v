(** Specification of the bit utilities, independent of the model. *)
From Coq Require Import ZArith List Bool.
Open Scope Z_scope.

(** Number of set bits among the lowest [w]. *)
Definition popcount (w : nat) (v : Z) : Z :=
  Z.of_nat (length (filter (fun i => Z.testbit v (Z.of_nat i)) (seq 0 w))).

Definition is_pow2 (p : Z) : Prop := exists k, 0 <= k /\ p = 2^k.
(** [p] is the least power of two that is at least [x]. *)
Definition least_pow2_above (x p : Z) : Prop := is_pow2 p /\ x <= p /\ forall q, is_pow2 q -> x <= q -> p <= q.
(** [p] is the greatest power of two that is at most [x]. *)
Definition greatest_pow2_below (x p : Z) : Prop := is_pow2 p /\ p <= x /\ forall q, is_pow2 q -> q <= x -> q <= p.
(** [r] is the least multiple of [n] that is at least [x]. *)
Definition least_multiple_above (x n r : Z) : Prop := (n | r) /\ x <= r /\ forall q, (n | q) -> x <= q -> r <= q.

