(** Monotonicity from the sign of the derivative. *)
From Coq Require Import Reals Lra.
From Coquelicot Require Import Coquelicot.
Open Scope R_scope.

(** Increasing functions by non-negative derivative. *)
Lemma incr_by_deriv (f df : R -> R) : (forall x, is_derive f x (df x)) -> (forall x, 0 <= x <= 1 -> 0 <= df x) ->
  forall x y, 0 <= x -> x <= y -> y <= 1 -> f x <= f y.
Proof.
  intros Hd Hp x y Hx Hxy Hy.
  destruct (MVT_gen f x y df) as (c & Hc & E).
  - intros t _. apply Hd.
  - intros t _. apply continuity_pt_filterlim. apply (@ex_derive_continuous R_AbsRing R_NormedModule). eexists. apply Hd.
  - rewrite Rmin_left, Rmax_right in Hc by lra. pose proof (Hp c ltac:(lra)). nra.
Qed.

