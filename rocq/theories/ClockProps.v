(** C110: comparing ticks works across the wraparound of the counter. *)
From Coq Require Import ZArith Lia.
From Verif Require Import ClockModel.
Open Scope Z_scope.

(** What a counter that started at zero shows at time [t], counted in ticks without bound. *)
Definition shown (t : Z) : Z := t mod 2 ^ 64.
Lemma between_shown a b : TicksInBetween (shown a) (shown b) = (a - b) mod 2 ^ 64.
Proof. unfold TicksInBetween, shown. now rewrite Zminus_mod_idemp_l, Zminus_mod_idemp_r. Qed.
(** The number of ticks between two moments is right however often the counter has wrapped before them, as long as less than one round lies between them. *)
Theorem C110_between (older newer : Z) : older <= newer < older + 2 ^ 64 -> TicksInBetween (shown newer) (shown older) = newer - older.
Proof. intros H. rewrite between_shown. apply Z.mod_small. lia. Qed.
Print Assumptions C110_between.
(** [IsNewer] decides which of two moments is the later, for moments less than half a round apart; equal moments count as newer. *)
Theorem C110_newer (a b : Z) : b - 2 ^ 63 <= a < b + 2 ^ 63 - 1 -> (IsNewer (shown a) (shown b) = true <-> b <= a).
Proof.
  intros H. unfold IsNewer. rewrite between_shown, Z.ltb_lt. change (Z.shiftr (2 ^ 64 - 1) 1) with (2 ^ 63 - 1). destruct (Z.le_gt_cases b a) as [L|L].
  - rewrite Z.mod_small by lia. lia.
  - replace (a - b) with ((a - b + 2 ^ 64) + (-1) * 2 ^ 64) by lia. rewrite Z.mod_add by lia. rewrite Z.mod_small by lia. lia.
Qed.
Print Assumptions C110_newer.
(** Of two different moments less than half a round apart exactly one is newer; the relation is compatible with adding the same delay to both. *)
Theorem C110_order (a b d : Z) : (a <> b -> b - 2 ^ 63 + 1 < a < b + 2 ^ 63 - 1 -> IsNewer (shown a) (shown b) = negb (IsNewer (shown b) (shown a))) /\ IsNewer (shown (a + d)) (shown (b + d)) = IsNewer (shown a) (shown b).
Proof.
  split.
  - intros NE H. pose proof (C110_newer a b ltac:(lia)) as A. pose proof (C110_newer b a ltac:(lia)) as B. destruct (IsNewer (shown a) (shown b)), (IsNewer (shown b) (shown a)); try reflexivity; exfalso.
    + assert (b <= a) by now apply A. assert (a <= b) by now apply B. lia.
    + destruct (Z.le_gt_cases b a) as [L|L]; [apply A in L; discriminate|]. assert (X : a <= b) by lia. apply B in X. discriminate.
  - unfold IsNewer. rewrite !between_shown. now replace (a + d - (b + d)) with (a - b) by lia.
Qed.
Print Assumptions C110_order.
(** "Returns true if newTick represents a later wallclock time than oldTick" (Clock.h:96): not so for equal ticks, nor for a time later by half a round less one. *)
Theorem C110_later_refuted : (forall t, IsNewer (shown t) (shown t) = true) /\ forall t, IsNewer (shown (t + 2 ^ 63 - 1)) (shown t) = false.
Proof.
  split; intros t; unfold IsNewer; rewrite between_shown.
  - now rewrite Z.sub_diag.
  - replace (t + 2 ^ 63 - 1 - t) with (2 ^ 63 - 1) by lia. reflexivity.
Qed.
Print Assumptions C110_later_refuted.
Theorem C110_milliseconds (f : Z) : 0 <= f -> 0 <= f - 1000 * TicksPerMillisecond f < 1000.
Proof. intros H. unfold TicksPerMillisecond. pose proof (Z.div_mod f 1000 ltac:(lia)). pose proof (Z.mod_pos_bound f 1000 ltac:(lia)). lia. Qed.
Print Assumptions C110_milliseconds.
(** Across the wraparound: ten ticks before and five after. *)
Example C110_witness : let b := 2 ^ 64 - 10 in let a := 2 ^ 64 + 5 in shown b = 2 ^ 64 - 10 /\ shown a = 5 /\ b - 2 ^ 63 <= a < b + 2 ^ 63 - 1 /\ TicksInBetween (shown a) (shown b) = 15 /\ IsNewer (shown a) (shown b) = true /\ IsNewer (shown b) (shown a) = false.
Proof. cbv zeta. repeat split; vm_compute; congruence. Qed.
