(** Property C64: the easing curves of Interpolate.h. *)
From Coq Require Import ZArith Reals Lra Psatz.
From Coquelicot Require Import Coquelicot.
From Verif Require Import Num NumR ScalarModel DerivLemmas.
Open Scope R_scope.

(** An easing curve: 0 to 1 on [0,1], never leaving [0,1], never decreasing. *)
Definition easing (f : R -> R) : Prop :=
  f 0 = 0 /\ f 1 = 1 /\ (forall t, 0 <= t <= 1 -> 0 <= f t <= 1) /\
  (forall s t, 0 <= s -> s <= t -> t <= 1 -> f s <= f t).

Lemma easing_intro f df : f 0 = 0 -> f 1 = 1 ->
  (forall t, is_derive f t (df t)) -> (forall t, 0 <= t <= 1 -> 0 <= df t) -> easing f.
Proof.
  intros F0 F1 D P.
  assert (M : forall s t, 0 <= s -> s <= t -> t <= 1 -> f s <= f t) by (intros; apply (incr_by_deriv f df); auto).
  split; [exact F0|]. split; [exact F1|]. split; [|exact M].
  intros t Ht. pose proof (M 0 t). pose proof (M t 1). rewrite F0, F1 in *. lra.
Qed.
Ltac ease f df :=
  apply (easing_intro (f : R -> R) df); unfold SmoothStop, SmoothStart, SmoothStop3, SmoothStart3, SmoothStop4, SmoothStart4, SmoothStop5, SmoothStart5,
    SmoothStep, SmoothStep5, SmoothStep7, SharpStep; rsimpl; [field|field| intros t; auto_derive; [exact I|field] |intros t Ht].

Lemma pos2 t : 0 <= t * t. Proof. nra. Qed.
Theorem C64_smooth_start : easing SmoothStart /\ easing SmoothStart3 /\ easing SmoothStart4 /\ easing SmoothStart5.
Proof.
  split; [|split; [|split]].
  - ease (@SmoothStart R _) (fun t : R => 2 * t). lra.
  - ease (@SmoothStart3 R _) (fun t : R => 3 * (t * t)). nra.
  - ease (@SmoothStart4 R _) (fun t : R => 4 * (t * t * t)). pose proof (pos2 t). nra.
  - ease (@SmoothStart5 R _) (fun t : R => 5 * (t * t * (t * t))). pose proof (pos2 t). nra.
Qed.
Print Assumptions C64_smooth_start.
Theorem C64_smooth_stop : easing SmoothStop /\ easing SmoothStop3 /\ easing SmoothStop4 /\ easing SmoothStop5.
Proof.
  split; [|split; [|split]].
  - ease (@SmoothStop R _) (fun t : R => 2 * (1 - t)). lra.
  - ease (@SmoothStop3 R _) (fun t : R => 3 * ((1 - t) * (1 - t))). nra.
  - ease (@SmoothStop4 R _) (fun t : R => 4 * ((1 - t) * (1 - t) * (1 - t))). pose proof (pos2 (1 - t)). nra.
  - ease (@SmoothStop5 R _) (fun t : R => 5 * ((1 - t) * (1 - t) * ((1 - t) * (1 - t)))). pose proof (pos2 (1 - t)). nra.
Qed.
Print Assumptions C64_smooth_stop.
Theorem C64_smooth_step : easing SharpStep /\ easing SmoothStep /\ easing SmoothStep5 /\ easing SmoothStep7.
Proof.
  split; [|split; [|split]].
  - ease (@SharpStep R _) (fun t : R => 6 * t * t - 6 * t + 2). nra.
  - ease (@SmoothStep R _) (fun t : R => 6 * (t * (1 - t))). nra.
  - ease (@SmoothStep5 R _) (fun t : R => 30 * ((t * (1 - t)) * (t * (1 - t)))). pose proof (pos2 (t * (1 - t))). lra.
  - ease (@SmoothStep7 R _) (fun t : R => 140 * ((t * (1 - t)) * (t * (1 - t)) * (t * (1 - t)))).
    pose proof (pos2 (t * (1 - t))). assert (0 <= t * (1 - t)) by nra. nra.
Qed.
Print Assumptions C64_smooth_step.
(** SmoothStopN is SmoothStartN run backwards, and the steps are point-symmetric around (1/2, 1/2). *)
Theorem C64_symmetry : forall t : R,
  SmoothStop t = 1 - SmoothStart (1 - t) /\ SmoothStop3 t = 1 - SmoothStart3 (1 - t) /\
  SmoothStop4 t = 1 - SmoothStart4 (1 - t) /\ SmoothStop5 t = 1 - SmoothStart5 (1 - t) /\
  SmoothStep (1 - t) = 1 - SmoothStep t /\ SmoothStep5 (1 - t) = 1 - SmoothStep5 t /\
  SmoothStep7 (1 - t) = 1 - SmoothStep7 t /\ SharpStep (1 - t) = 1 - SharpStep t.
Proof.
  intros t. unfold SmoothStop, SmoothStart, SmoothStop3, SmoothStart3, SmoothStop4, SmoothStart4, SmoothStop5, SmoothStart5,
    SmoothStep, SmoothStep5, SmoothStep7, SharpStep. rsimpl. repeat split; field.
Qed.
Print Assumptions C64_symmetry.
(** The derivatives at the ends vanish for the smooth steps (to order 1, 2 and 3). *)
Theorem C64_smooth_step_flat : forall t : R,
  SmoothStep t = t^2 * (3 - 2 * t) /\ SmoothStep5 t = t^3 * (10 - 15 * t + 6 * t^2) /\
  SmoothStep7 t = t^4 * (35 - 84 * t + 70 * t^2 - 20 * t^3).
Proof. intros t. unfold SmoothStep, SmoothStep5, SmoothStep7. rsimpl. repeat split; field. Qed.
Print Assumptions C64_smooth_step_flat.
Example C64_witness : SmoothStep (1/4) = 5/32 /\ SmoothStep5 (1/2) = 1/2 /\ SharpStep (1/4) = 11/32.
Proof. unfold SmoothStep, SmoothStep5, SharpStep. rsimpl. repeat split; field. Qed.
