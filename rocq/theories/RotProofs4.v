(** Lemmas about extracting Euler angles. *)
From Coq Require Import Reals Lra Psatz List Bool Nsatz.
From Verif Require Import Num NumR ScalarModel ScalarProofs Vec3Model GeoTypes GeoSpec GeoLemmas Vec3Props AabbModel
  GMatModel MatModel MatSpec MatProofs MatProofs2 Vec2Model RotModel RotSpec RotProofs RotProofs2 RotProofs3.
Import ListNotations.
Open Scope R_scope.

(** ** Euler angles: extraction *)
Lemma asin_case c x y x' y' : -1 < c < 1 -> x*x + y*y = 1 - c*c -> x'*x' + y'*y' = 1 - c*c ->
  exists k, 0 < k /\ k*k = 1 - c*c /\ cos (asin c) = k /\ sin (asin c) = c /\
    k * cos (Ratan2 y x) = x /\ k * sin (Ratan2 y x) = y /\ k * cos (Ratan2 y' x') = x' /\ k * sin (Ratan2 y' x') = y'.
Proof.
  intros C E E'. assert (P : 0 < 1 - c*c) by nra. exists (sqrt (1 - c*c)).
  split; [now apply sqrt_lt_R0|]. split; [apply sqrt_sqrt; lra|]. split; [rewrite cos_asin by lra; reflexivity|]. split; [apply sin_asin; lra|].
  destruct (Ratan2_polar x y ltac:(lra)) as [A B]. rewrite E in *. destruct (Ratan2_polar x' y' ltac:(lra)) as [A' B']. rewrite E' in *. auto.
Qed.
Lemma acos_case c x y x' y' : -1 < c < 1 -> x*x + y*y = 1 - c*c -> x'*x' + y'*y' = 1 - c*c ->
  exists k, 0 < k /\ k*k = 1 - c*c /\ sin (acos c) = k /\ cos (acos c) = c /\
    k * cos (Ratan2 y x) = x /\ k * sin (Ratan2 y x) = y /\ k * cos (Ratan2 y' x') = x' /\ k * sin (Ratan2 y' x') = y'.
Proof.
  intros C E E'. assert (P : 0 < 1 - c*c) by nra. exists (sqrt (1 - c*c)).
  split; [now apply sqrt_lt_R0|]. split; [apply sqrt_sqrt; lra|]. split; [rewrite sin_acos by lra; reflexivity|]. split; [apply cos_acos; lra|].
  destruct (Ratan2_polar x y ltac:(lra)) as [A B]. rewrite E in *. destruct (Ratan2_polar x' y' ltac:(lra)) as [A' B']. rewrite E' in *. auto.
Qed.
Lemma gimbal x y : x*x + y*y = 1 -> cos (Ratan2 y x) = x /\ sin (Ratan2 y x) = y.
Proof. intros E. destruct (Ratan2_polar x y ltac:(lra)) as [A B]. rewrite E, sqrt_1 in *. lra. Qed.
Lemma sq_zero x y : x*x + y*y = 0 -> x = 0 /\ y = 0.
Proof. intros E. split; apply Rsqr_0_uniq; unfold Rsqr; nra. Qed.
(** The angles about the half turn points. *)
Lemma half_pi : cos (PI/2) = 0 /\ sin (PI/2) = 1 /\ cos (-PI/2) = 0 /\ sin (-PI/2) = -1.
Proof. replace (-PI/2) with (-(PI/2)) by field. rewrite cos_neg, sin_neg, cos_PI2, sin_PI2. auto. Qed.


Lemma rot_rows a b c d e f g h i : rotm a b c d e f g h i -> rotm d e f g h i a b c.
Proof. intros ((C0&C1&C2&C3&C4&C5)&(R0&R1&R2&R3&R4&R5)&(K0&K1&K2&K3&K4&K5&K6&K7&K8)). repeat split; lra. Qed.
Lemma rot_cols a b c d e f g h i : rotm a b c d e f g h i -> rotm b c a e f d h i g.
Proof. intros ((C0&C1&C2&C3&C4&C5)&(R0&R1&R2&R3&R4&R5)&(K0&K1&K2&K3&K4&K5&K6&K7&K8)). repeat split; lra. Qed.
(** What the row and the column of an element say about the remaining four. *)
Lemma pivot_row_col a b c d e f g h i : rotm a b c d e f g h i ->
  d*(1-c*c) = -a*c*f - b*i /\ e*(1-c*c) = -b*c*f + a*i /\ g*(1-c*c) = -a*c*i + b*f /\ h*(1-c*c) = -b*c*i - a*f.
Proof. intros (_&_&(K0&K1&K2&K3&K4&K5&K6&K7&K8)). repeat split; nsatz. Qed.
Lemma sq_nz k : 0 < k -> k*k <> 0. Proof. intros. nra. Qed.
Lemma unit_hi p x y : x*x + y*y = 1 - p*p -> 1 <= p -> p = 1. Proof. intros. nra. Qed.
Lemma unit_lo p x y : x*x + y*y = 1 - p*p -> p <= -1 -> p = -1. Proof. intros. nra. Qed.
Ltac euler_start Rt :=
  apply rotm_of in Rt; cbv zeta; unfold m00, m01, m02, m10, m11, m12, m20, m21, m22, mk3; cbn [row0 row1 row2 vx vy vz]; rsimpl; trig;
  rcase; [rcase|]; cbn [vx vy vz].
(** From the products of sines and cosines to the elements. *)
Ltac finish k p Kk T1 T2 T3 T4 ct st cu su :=
  let M := fresh in
  assert (M : forall t, k*k*t = t - p*p*t) by (intros; rewrite Kk; ring);
  let P1 := fresh in let P2 := fresh in let P3 := fresh in let P4 := fresh in
  assert (P1 := f_equal2 Rmult T1 T3); assert (P2 := f_equal2 Rmult T1 T4); assert (P3 := f_equal2 Rmult T2 T3); assert (P4 := f_equal2 Rmult T2 T4);
  let Q1 := fresh in let Q2 := fresh in let Q3 := fresh in let Q4 := fresh in
  assert (Q1 := f_equal (Rmult p) P1); assert (Q2 := f_equal (Rmult p) P2); assert (Q3 := f_equal (Rmult p) P3); assert (Q4 := f_equal (Rmult p) P4);
  cbv beta in *; apply (Rmult_eq_reg_l (k * k)); [|apply sq_nz; assumption]; match goal with |- _ = k*k*?t => rewrite (M t) end; lra.
Ltac generic Rt Kk T1 T2 T3 T4 p k :=
  match type of T1 with k * cos ?t = _ => match type of T3 with k * cos ?u = _ =>
    generalize dependent (cos t); generalize dependent (sin t); generalize dependent (cos u); generalize dependent (sin u) end end;
  let su := fresh "su" in let cu := fresh "cu" in let st := fresh "st" in let ct := fresh "ct" in
  let T3' := fresh in let T4' := fresh in let T1' := fresh in let T2' := fresh in
  intros su T4' cu T3' st T2' ct T1'; mext; try lra; finish k p Kk T1' T2' T3' T4' ct st cu su.
Lemma to_XYZ (m : mat3 R) : rotation (apply m) -> let v := ToEulerXYZ m in FromEulerXYZ (vx v) (vy v) (vz v) = m.
Proof.
  unfold ToEulerXYZ. destruct m as [[a b c] [d e f] [g h i]]. change (M3 (V3 a b c) (V3 d e f) (V3 g h i)) with (mk3 a b c d e f g h i). intros Rt.
  euler_start Rt; pose proof (pivot_row_col _ _ _ _ _ _ _ _ _ Rt) as (V0&V1&V2&V3);
  destruct Rt as ((C0&C1&C2&C3&C4&C5)&(R0&R1&R2&R3&R4&R5)&(K0&K1&K2&K3&K4&K5&K6&K7&K8)); unfold FromEulerXYZ, mk3; rsimpl; trig.
  - destruct (asin_case c i (-f) a (-b)) as (k & Kp & Kk & Ca & Sa & T1 & T2 & T3 & T4); [lra|lra|lra|].
    rewrite Ca, Sa. clear Ca Sa. generic Rt Kk T1 T2 T3 T4 c k.
  - assert (E : c = -1) by (apply (unit_lo c a b); lra). rewrite E in *.
    destruct (sq_zero a b) as [Z0 Z1]; [lra|]. destruct (sq_zero f i) as [Z2 Z3]; [lra|]. rewrite Z0, Z1, Z2, Z3 in *.
    destruct (gimbal e d) as [Gc Gs]; [lra|]. rewrite ?cos_neg, ?sin_neg. rewrite ?Gc, ?Gs, ?cos_0, ?sin_0, ?cos_PI, ?sin_PI.
    destruct half_pi as (H1&H2&H3&H4). rewrite ?H1, ?H2, ?H3, ?H4. mext; lra.
  - assert (E : c = 1) by (apply (unit_hi c a b); lra). rewrite E in *.
    destruct (sq_zero a b) as [Z0 Z1]; [lra|]. destruct (sq_zero f i) as [Z2 Z3]; [lra|]. rewrite Z0, Z1, Z2, Z3 in *.
    destruct (gimbal e d) as [Gc Gs]; [lra|]. rewrite ?cos_neg, ?sin_neg. rewrite ?Gc, ?Gs, ?cos_0, ?sin_0, ?cos_PI, ?sin_PI.
    destruct half_pi as (H1&H2&H3&H4). rewrite ?H1, ?H2, ?H3, ?H4. mext; lra.
Qed.
Lemma to_XZY (m : mat3 R) : rotation (apply m) -> let v := ToEulerXZY m in FromEulerXZY (vx v) (vy v) (vz v) = m.
Proof.
  unfold ToEulerXZY. destruct m as [[a b c] [d e f] [g h i]]. change (M3 (V3 a b c) (V3 d e f) (V3 g h i)) with (mk3 a b c d e f g h i). intros Rt.
  euler_start Rt; pose proof (pivot_row_col _ _ _ _ _ _ _ _ _ (rot_cols _ _ _ _ _ _ _ _ _ (rot_cols _ _ _ _ _ _ _ _ _ Rt))) as (V0&V1&V2&V3);
  destruct Rt as ((C0&C1&C2&C3&C4&C5)&(R0&R1&R2&R3&R4&R5)&(K0&K1&K2&K3&K4&K5&K6&K7&K8)); unfold FromEulerXZY, mk3; rsimpl; trig.
  - destruct (asin_case (-b) e h a c) as (k & Kp & Kk & Ca & Sa & T1 & T2 & T3 & T4); [lra|lra|lra|].
    rewrite Ca, Sa. clear Ca Sa. generic Rt Kk T1 T2 T3 T4 b k.
  - assert (E : b = -1) by (apply (unit_lo b a c); lra). rewrite E in *.
    destruct (sq_zero a c) as [Z0 Z1]; [lra|]. destruct (sq_zero e h) as [Z2 Z3]; [lra|]. rewrite Z0, Z1, Z2, Z3 in *.
    destruct (gimbal i (-g)) as [Gc Gs]; [lra|]. rewrite ?cos_neg, ?sin_neg. rewrite ?Gc, ?Gs, ?cos_0, ?sin_0, ?cos_PI, ?sin_PI.
    destruct half_pi as (H1&H2&H3&H4). rewrite ?H1, ?H2, ?H3, ?H4. mext; lra.
  - assert (E : b = 1) by (apply (unit_hi b a c); lra). rewrite E in *.
    destruct (sq_zero a c) as [Z0 Z1]; [lra|]. destruct (sq_zero e h) as [Z2 Z3]; [lra|]. rewrite Z0, Z1, Z2, Z3 in *.
    destruct (gimbal i (-g)) as [Gc Gs]; [lra|]. rewrite ?cos_neg, ?sin_neg. rewrite ?Gc, ?Gs, ?cos_0, ?sin_0, ?cos_PI, ?sin_PI.
    destruct half_pi as (H1&H2&H3&H4). rewrite ?H1, ?H2, ?H3, ?H4. mext; lra.
Qed.
Lemma to_YXZ (m : mat3 R) : rotation (apply m) -> let v := ToEulerYXZ m in FromEulerYXZ (vx v) (vy v) (vz v) = m.
Proof.
  unfold ToEulerYXZ. destruct m as [[a b c] [d e f] [g h i]]. change (M3 (V3 a b c) (V3 d e f) (V3 g h i)) with (mk3 a b c d e f g h i). intros Rt.
  euler_start Rt; pose proof (pivot_row_col _ _ _ _ _ _ _ _ _ (rot_rows _ _ _ _ _ _ _ _ _ Rt)) as (V0&V1&V2&V3);
  destruct Rt as ((C0&C1&C2&C3&C4&C5)&(R0&R1&R2&R3&R4&R5)&(K0&K1&K2&K3&K4&K5&K6&K7&K8)); unfold FromEulerYXZ, mk3; rsimpl; trig.
  - destruct (asin_case (-f) i c e d) as (k & Kp & Kk & Ca & Sa & T1 & T2 & T3 & T4); [lra|lra|lra|].
    rewrite Ca, Sa. clear Ca Sa. generic Rt Kk T1 T2 T3 T4 f k.
  - assert (E : f = -1) by (apply (unit_lo f d e); lra). rewrite E in *.
    destruct (sq_zero d e) as [Z0 Z1]; [lra|]. destruct (sq_zero c i) as [Z2 Z3]; [lra|]. rewrite Z0, Z1, Z2, Z3 in *.
    destruct (gimbal a (-b)) as [Gc Gs]; [lra|]. rewrite ?cos_neg, ?sin_neg. rewrite ?Gc, ?Gs, ?cos_0, ?sin_0, ?cos_PI, ?sin_PI.
    destruct half_pi as (H1&H2&H3&H4). rewrite ?H1, ?H2, ?H3, ?H4. mext; lra.
  - assert (E : f = 1) by (apply (unit_hi f d e); lra). rewrite E in *.
    destruct (sq_zero d e) as [Z0 Z1]; [lra|]. destruct (sq_zero c i) as [Z2 Z3]; [lra|]. rewrite Z0, Z1, Z2, Z3 in *.
    destruct (gimbal a (-b)) as [Gc Gs]; [lra|]. rewrite ?cos_neg, ?sin_neg. rewrite ?Gc, ?Gs, ?cos_0, ?sin_0, ?cos_PI, ?sin_PI.
    destruct half_pi as (H1&H2&H3&H4). rewrite ?H1, ?H2, ?H3, ?H4. mext; lra.
Qed.
Lemma to_YZX (m : mat3 R) : rotation (apply m) -> let v := ToEulerYZX m in FromEulerYZX (vx v) (vy v) (vz v) = m.
Proof.
  unfold ToEulerYZX. destruct m as [[a b c] [d e f] [g h i]]. change (M3 (V3 a b c) (V3 d e f) (V3 g h i)) with (mk3 a b c d e f g h i). intros Rt.
  euler_start Rt; pose proof (pivot_row_col _ _ _ _ _ _ _ _ _ (rot_cols _ _ _ _ _ _ _ _ _ (rot_rows _ _ _ _ _ _ _ _ _ Rt))) as (V0&V1&V2&V3);
  destruct Rt as ((C0&C1&C2&C3&C4&C5)&(R0&R1&R2&R3&R4&R5)&(K0&K1&K2&K3&K4&K5&K6&K7&K8)); unfold FromEulerYZX, mk3; rsimpl; trig.
  - destruct (asin_case d a (-g) e (-f)) as (k & Kp & Kk & Ca & Sa & T1 & T2 & T3 & T4); [lra|lra|lra|].
    rewrite Ca, Sa. clear Ca Sa. generic Rt Kk T1 T2 T3 T4 d k.
  - assert (E : d = -1) by (apply (unit_lo d e f); lra). rewrite E in *.
    destruct (sq_zero e f) as [Z0 Z1]; [lra|]. destruct (sq_zero a g) as [Z2 Z3]; [lra|]. rewrite Z0, Z1, Z2, Z3 in *.
    destruct (gimbal i h) as [Gc Gs]; [lra|]. rewrite ?cos_neg, ?sin_neg. rewrite ?Gc, ?Gs, ?cos_0, ?sin_0, ?cos_PI, ?sin_PI.
    destruct half_pi as (H1&H2&H3&H4). rewrite ?H1, ?H2, ?H3, ?H4. mext; lra.
  - assert (E : d = 1) by (apply (unit_hi d e f); lra). rewrite E in *.
    destruct (sq_zero e f) as [Z0 Z1]; [lra|]. destruct (sq_zero a g) as [Z2 Z3]; [lra|]. rewrite Z0, Z1, Z2, Z3 in *.
    destruct (gimbal i h) as [Gc Gs]; [lra|]. rewrite ?cos_neg, ?sin_neg. rewrite ?Gc, ?Gs, ?cos_0, ?sin_0, ?cos_PI, ?sin_PI.
    destruct half_pi as (H1&H2&H3&H4). rewrite ?H1, ?H2, ?H3, ?H4. mext; lra.
Qed.
Lemma to_ZXY (m : mat3 R) : rotation (apply m) -> let v := ToEulerZXY m in FromEulerZXY (vx v) (vy v) (vz v) = m.
Proof.
  unfold ToEulerZXY. destruct m as [[a b c] [d e f] [g h i]]. change (M3 (V3 a b c) (V3 d e f) (V3 g h i)) with (mk3 a b c d e f g h i). intros Rt.
  euler_start Rt; pose proof (pivot_row_col _ _ _ _ _ _ _ _ _ (rot_cols _ _ _ _ _ _ _ _ _ (rot_cols _ _ _ _ _ _ _ _ _ (rot_rows _ _ _ _ _ _ _ _ _ (rot_rows _ _ _ _ _ _ _ _ _ Rt))))) as (V0&V1&V2&V3);
  destruct Rt as ((C0&C1&C2&C3&C4&C5)&(R0&R1&R2&R3&R4&R5)&(K0&K1&K2&K3&K4&K5&K6&K7&K8)); unfold FromEulerZXY, mk3; rsimpl; trig.
  - destruct (asin_case h e (-b) i (-g)) as (k & Kp & Kk & Ca & Sa & T1 & T2 & T3 & T4); [lra|lra|lra|].
    rewrite Ca, Sa. clear Ca Sa. generic Rt Kk T1 T2 T3 T4 h k.
  - assert (E : h = -1) by (apply (unit_lo h g i); lra). rewrite E in *.
    destruct (sq_zero g i) as [Z0 Z1]; [lra|]. destruct (sq_zero b e) as [Z2 Z3]; [lra|]. rewrite Z0, Z1, Z2, Z3 in *.
    destruct (gimbal a c) as [Gc Gs]; [lra|]. rewrite ?cos_neg, ?sin_neg. rewrite ?Gc, ?Gs, ?cos_0, ?sin_0, ?cos_PI, ?sin_PI.
    destruct half_pi as (H1&H2&H3&H4). rewrite ?H1, ?H2, ?H3, ?H4. mext; lra.
  - assert (E : h = 1) by (apply (unit_hi h g i); lra). rewrite E in *.
    destruct (sq_zero g i) as [Z0 Z1]; [lra|]. destruct (sq_zero b e) as [Z2 Z3]; [lra|]. rewrite Z0, Z1, Z2, Z3 in *.
    destruct (gimbal a c) as [Gc Gs]; [lra|]. rewrite ?cos_neg, ?sin_neg. rewrite ?Gc, ?Gs, ?cos_0, ?sin_0, ?cos_PI, ?sin_PI.
    destruct half_pi as (H1&H2&H3&H4). rewrite ?H1, ?H2, ?H3, ?H4. mext; lra.
Qed.
Lemma to_ZYX (m : mat3 R) : rotation (apply m) -> let v := ToEulerZYX m in FromEulerZYX (vx v) (vy v) (vz v) = m.
Proof.
  unfold ToEulerZYX. destruct m as [[a b c] [d e f] [g h i]]. change (M3 (V3 a b c) (V3 d e f) (V3 g h i)) with (mk3 a b c d e f g h i). intros Rt.
  euler_start Rt; pose proof (pivot_row_col _ _ _ _ _ _ _ _ _ (rot_cols _ _ _ _ _ _ _ _ _ (rot_rows _ _ _ _ _ _ _ _ _ (rot_rows _ _ _ _ _ _ _ _ _ Rt)))) as (V0&V1&V2&V3);
  destruct Rt as ((C0&C1&C2&C3&C4&C5)&(R0&R1&R2&R3&R4&R5)&(K0&K1&K2&K3&K4&K5&K6&K7&K8)); unfold FromEulerZYX, mk3; rsimpl; trig.
  - destruct (asin_case (-g) a d i h) as (k & Kp & Kk & Ca & Sa & T1 & T2 & T3 & T4); [lra|lra|lra|].
    rewrite Ca, Sa. clear Ca Sa. generic Rt Kk T1 T2 T3 T4 g k.
  - assert (E : g = -1) by (apply (unit_lo g h i); lra). rewrite E in *.
    destruct (sq_zero h i) as [Z0 Z1]; [lra|]. destruct (sq_zero a d) as [Z2 Z3]; [lra|]. rewrite Z0, Z1, Z2, Z3 in *.
    destruct (gimbal e (-f)) as [Gc Gs]; [lra|]. rewrite ?cos_neg, ?sin_neg. rewrite ?Gc, ?Gs, ?cos_0, ?sin_0, ?cos_PI, ?sin_PI.
    destruct half_pi as (H1&H2&H3&H4). rewrite ?H1, ?H2, ?H3, ?H4. mext; lra.
  - assert (E : g = 1) by (apply (unit_hi g h i); lra). rewrite E in *.
    destruct (sq_zero h i) as [Z0 Z1]; [lra|]. destruct (sq_zero a d) as [Z2 Z3]; [lra|]. rewrite Z0, Z1, Z2, Z3 in *.
    destruct (gimbal e (-f)) as [Gc Gs]; [lra|]. rewrite ?cos_neg, ?sin_neg. rewrite ?Gc, ?Gs, ?cos_0, ?sin_0, ?cos_PI, ?sin_PI.
    destruct half_pi as (H1&H2&H3&H4). rewrite ?H1, ?H2, ?H3, ?H4. mext; lra.
Qed.
Lemma to_XYX (m : mat3 R) : rotation (apply m) -> let v := ToEulerXYX m in FromEulerXYX (vx v) (vy v) (vz v) = m.
Proof.
  unfold ToEulerXYX. destruct m as [[a b c] [d e f] [g h i]]. change (M3 (V3 a b c) (V3 d e f) (V3 g h i)) with (mk3 a b c d e f g h i). intros Rt.
  euler_start Rt; pose proof (pivot_row_col _ _ _ _ _ _ _ _ _ (rot_cols _ _ _ _ _ _ _ _ _ Rt)) as (V0&V1&V2&V3);
  destruct Rt as ((C0&C1&C2&C3&C4&C5)&(R0&R1&R2&R3&R4&R5)&(K0&K1&K2&K3&K4&K5&K6&K7&K8)); unfold FromEulerXYX, mk3; rsimpl; trig.
  - destruct (acos_case a (-g) d c b) as (k & Kp & Kk & Ca & Sa & T1 & T2 & T3 & T4); [lra|lra|lra|].
    rewrite Ca, Sa. clear Ca Sa. generic Rt Kk T1 T2 T3 T4 a k.
  - assert (E : a = -1) by (apply (unit_lo a b c); lra). rewrite E in *.
    destruct (sq_zero b c) as [Z0 Z1]; [lra|]. destruct (sq_zero d g) as [Z2 Z3]; [lra|]. rewrite Z0, Z1, Z2, Z3 in *.
    destruct (gimbal e (-f)) as [Gc Gs]; [lra|]. rewrite ?cos_neg, ?sin_neg. rewrite ?Gc, ?Gs, ?cos_0, ?sin_0, ?cos_PI, ?sin_PI.
    destruct half_pi as (H1&H2&H3&H4). rewrite ?H1, ?H2, ?H3, ?H4. mext; lra.
  - assert (E : a = 1) by (apply (unit_hi a b c); lra). rewrite E in *.
    destruct (sq_zero b c) as [Z0 Z1]; [lra|]. destruct (sq_zero d g) as [Z2 Z3]; [lra|]. rewrite Z0, Z1, Z2, Z3 in *.
    destruct (gimbal e (-f)) as [Gc Gs]; [lra|]. rewrite ?cos_neg, ?sin_neg. rewrite ?Gc, ?Gs, ?cos_0, ?sin_0, ?cos_PI, ?sin_PI.
    destruct half_pi as (H1&H2&H3&H4). rewrite ?H1, ?H2, ?H3, ?H4. mext; lra.
Qed.
Lemma to_XZX (m : mat3 R) : rotation (apply m) -> let v := ToEulerXZX m in FromEulerXZX (vx v) (vy v) (vz v) = m.
Proof.
  unfold ToEulerXZX. destruct m as [[a b c] [d e f] [g h i]]. change (M3 (V3 a b c) (V3 d e f) (V3 g h i)) with (mk3 a b c d e f g h i). intros Rt.
  euler_start Rt; pose proof (pivot_row_col _ _ _ _ _ _ _ _ _ (rot_cols _ _ _ _ _ _ _ _ _ Rt)) as (V0&V1&V2&V3);
  destruct Rt as ((C0&C1&C2&C3&C4&C5)&(R0&R1&R2&R3&R4&R5)&(K0&K1&K2&K3&K4&K5&K6&K7&K8)); unfold FromEulerXZX, mk3; rsimpl; trig.
  - destruct (acos_case a d g (-b) c) as (k & Kp & Kk & Ca & Sa & T1 & T2 & T3 & T4); [lra|lra|lra|].
    rewrite Ca, Sa. clear Ca Sa. generic Rt Kk T1 T2 T3 T4 a k.
  - assert (E : a = -1) by (apply (unit_lo a b c); lra). rewrite E in *.
    destruct (sq_zero b c) as [Z0 Z1]; [lra|]. destruct (sq_zero d g) as [Z2 Z3]; [lra|]. rewrite Z0, Z1, Z2, Z3 in *.
    destruct (gimbal i h) as [Gc Gs]; [lra|]. rewrite ?cos_neg, ?sin_neg. rewrite ?Gc, ?Gs, ?cos_0, ?sin_0, ?cos_PI, ?sin_PI.
    destruct half_pi as (H1&H2&H3&H4). rewrite ?H1, ?H2, ?H3, ?H4. mext; lra.
  - assert (E : a = 1) by (apply (unit_hi a b c); lra). rewrite E in *.
    destruct (sq_zero b c) as [Z0 Z1]; [lra|]. destruct (sq_zero d g) as [Z2 Z3]; [lra|]. rewrite Z0, Z1, Z2, Z3 in *.
    destruct (gimbal i h) as [Gc Gs]; [lra|]. rewrite ?cos_neg, ?sin_neg. rewrite ?Gc, ?Gs, ?cos_0, ?sin_0, ?cos_PI, ?sin_PI.
    destruct half_pi as (H1&H2&H3&H4). rewrite ?H1, ?H2, ?H3, ?H4. mext; lra.
Qed.
Lemma to_YXY (m : mat3 R) : rotation (apply m) -> let v := ToEulerYXY m in FromEulerYXY (vx v) (vy v) (vz v) = m.
Proof.
  unfold ToEulerYXY. destruct m as [[a b c] [d e f] [g h i]]. change (M3 (V3 a b c) (V3 d e f) (V3 g h i)) with (mk3 a b c d e f g h i). intros Rt.
  euler_start Rt; pose proof (pivot_row_col _ _ _ _ _ _ _ _ _ (rot_cols _ _ _ _ _ _ _ _ _ (rot_cols _ _ _ _ _ _ _ _ _ (rot_rows _ _ _ _ _ _ _ _ _ Rt)))) as (V0&V1&V2&V3);
  destruct Rt as ((C0&C1&C2&C3&C4&C5)&(R0&R1&R2&R3&R4&R5)&(K0&K1&K2&K3&K4&K5&K6&K7&K8)); unfold FromEulerYXY, mk3; rsimpl; trig.
  - destruct (acos_case e h b (-f) d) as (k & Kp & Kk & Ca & Sa & T1 & T2 & T3 & T4); [lra|lra|lra|].
    rewrite Ca, Sa. clear Ca Sa. generic Rt Kk T1 T2 T3 T4 e k.
  - assert (E : e = -1) by (apply (unit_lo e d f); lra). rewrite E in *.
    destruct (sq_zero d f) as [Z0 Z1]; [lra|]. destruct (sq_zero b h) as [Z2 Z3]; [lra|]. rewrite Z0, Z1, Z2, Z3 in *.
    destruct (gimbal a c) as [Gc Gs]; [lra|]. rewrite ?cos_neg, ?sin_neg. rewrite ?Gc, ?Gs, ?cos_0, ?sin_0, ?cos_PI, ?sin_PI.
    destruct half_pi as (H1&H2&H3&H4). rewrite ?H1, ?H2, ?H3, ?H4. mext; lra.
  - assert (E : e = 1) by (apply (unit_hi e d f); lra). rewrite E in *.
    destruct (sq_zero d f) as [Z0 Z1]; [lra|]. destruct (sq_zero b h) as [Z2 Z3]; [lra|]. rewrite Z0, Z1, Z2, Z3 in *.
    destruct (gimbal a c) as [Gc Gs]; [lra|]. rewrite ?cos_neg, ?sin_neg. rewrite ?Gc, ?Gs, ?cos_0, ?sin_0, ?cos_PI, ?sin_PI.
    destruct half_pi as (H1&H2&H3&H4). rewrite ?H1, ?H2, ?H3, ?H4. mext; lra.
Qed.
Lemma to_YZY (m : mat3 R) : rotation (apply m) -> let v := ToEulerYZY m in FromEulerYZY (vx v) (vy v) (vz v) = m.
Proof.
  unfold ToEulerYZY. destruct m as [[a b c] [d e f] [g h i]]. change (M3 (V3 a b c) (V3 d e f) (V3 g h i)) with (mk3 a b c d e f g h i). intros Rt.
  euler_start Rt; pose proof (pivot_row_col _ _ _ _ _ _ _ _ _ (rot_cols _ _ _ _ _ _ _ _ _ (rot_cols _ _ _ _ _ _ _ _ _ (rot_rows _ _ _ _ _ _ _ _ _ Rt)))) as (V0&V1&V2&V3);
  destruct Rt as ((C0&C1&C2&C3&C4&C5)&(R0&R1&R2&R3&R4&R5)&(K0&K1&K2&K3&K4&K5&K6&K7&K8)); unfold FromEulerYZY, mk3; rsimpl; trig.
  - destruct (acos_case e (-b) h d f) as (k & Kp & Kk & Ca & Sa & T1 & T2 & T3 & T4); [lra|lra|lra|].
    rewrite Ca, Sa. clear Ca Sa. generic Rt Kk T1 T2 T3 T4 e k.
  - assert (E : e = -1) by (apply (unit_lo e d f); lra). rewrite E in *.
    destruct (sq_zero d f) as [Z0 Z1]; [lra|]. destruct (sq_zero b h) as [Z2 Z3]; [lra|]. rewrite Z0, Z1, Z2, Z3 in *.
    destruct (gimbal i (-g)) as [Gc Gs]; [lra|]. rewrite ?cos_neg, ?sin_neg. rewrite ?Gc, ?Gs, ?cos_0, ?sin_0, ?cos_PI, ?sin_PI.
    destruct half_pi as (H1&H2&H3&H4). rewrite ?H1, ?H2, ?H3, ?H4. mext; lra.
  - assert (E : e = 1) by (apply (unit_hi e d f); lra). rewrite E in *.
    destruct (sq_zero d f) as [Z0 Z1]; [lra|]. destruct (sq_zero b h) as [Z2 Z3]; [lra|]. rewrite Z0, Z1, Z2, Z3 in *.
    destruct (gimbal i (-g)) as [Gc Gs]; [lra|]. rewrite ?cos_neg, ?sin_neg. rewrite ?Gc, ?Gs, ?cos_0, ?sin_0, ?cos_PI, ?sin_PI.
    destruct half_pi as (H1&H2&H3&H4). rewrite ?H1, ?H2, ?H3, ?H4. mext; lra.
Qed.
Lemma to_ZXZ (m : mat3 R) : rotation (apply m) -> let v := ToEulerZXZ m in FromEulerZXZ (vx v) (vy v) (vz v) = m.
Proof.
  unfold ToEulerZXZ. destruct m as [[a b c] [d e f] [g h i]]. change (M3 (V3 a b c) (V3 d e f) (V3 g h i)) with (mk3 a b c d e f g h i). intros Rt.
  euler_start Rt; pose proof (pivot_row_col _ _ _ _ _ _ _ _ _ (rot_rows _ _ _ _ _ _ _ _ _ (rot_rows _ _ _ _ _ _ _ _ _ Rt))) as (V0&V1&V2&V3);
  destruct Rt as ((C0&C1&C2&C3&C4&C5)&(R0&R1&R2&R3&R4&R5)&(K0&K1&K2&K3&K4&K5&K6&K7&K8)); unfold FromEulerZXZ, mk3; rsimpl; trig.
  - destruct (acos_case i (-f) c h g) as (k & Kp & Kk & Ca & Sa & T1 & T2 & T3 & T4); [lra|lra|lra|].
    rewrite Ca, Sa. clear Ca Sa. generic Rt Kk T1 T2 T3 T4 i k.
  - assert (E : i = -1) by (apply (unit_lo i g h); lra). rewrite E in *.
    destruct (sq_zero g h) as [Z0 Z1]; [lra|]. destruct (sq_zero c f) as [Z2 Z3]; [lra|]. rewrite Z0, Z1, Z2, Z3 in *.
    destruct (gimbal a (-b)) as [Gc Gs]; [lra|]. rewrite ?cos_neg, ?sin_neg. rewrite ?Gc, ?Gs, ?cos_0, ?sin_0, ?cos_PI, ?sin_PI.
    destruct half_pi as (H1&H2&H3&H4). rewrite ?H1, ?H2, ?H3, ?H4. mext; lra.
  - assert (E : i = 1) by (apply (unit_hi i g h); lra). rewrite E in *.
    destruct (sq_zero g h) as [Z0 Z1]; [lra|]. destruct (sq_zero c f) as [Z2 Z3]; [lra|]. rewrite Z0, Z1, Z2, Z3 in *.
    destruct (gimbal a (-b)) as [Gc Gs]; [lra|]. rewrite ?cos_neg, ?sin_neg. rewrite ?Gc, ?Gs, ?cos_0, ?sin_0, ?cos_PI, ?sin_PI.
    destruct half_pi as (H1&H2&H3&H4). rewrite ?H1, ?H2, ?H3, ?H4. mext; lra.
Qed.
Lemma to_ZYZ (m : mat3 R) : rotation (apply m) -> let v := ToEulerZYZ m in FromEulerZYZ (vx v) (vy v) (vz v) = m.
Proof.
  unfold ToEulerZYZ. destruct m as [[a b c] [d e f] [g h i]]. change (M3 (V3 a b c) (V3 d e f) (V3 g h i)) with (mk3 a b c d e f g h i). intros Rt.
  euler_start Rt; pose proof (pivot_row_col _ _ _ _ _ _ _ _ _ (rot_rows _ _ _ _ _ _ _ _ _ (rot_rows _ _ _ _ _ _ _ _ _ Rt))) as (V0&V1&V2&V3);
  destruct Rt as ((C0&C1&C2&C3&C4&C5)&(R0&R1&R2&R3&R4&R5)&(K0&K1&K2&K3&K4&K5&K6&K7&K8)); unfold FromEulerZYZ, mk3; rsimpl; trig.
  - destruct (acos_case i c f (-g) h) as (k & Kp & Kk & Ca & Sa & T1 & T2 & T3 & T4); [lra|lra|lra|].
    rewrite Ca, Sa. clear Ca Sa. generic Rt Kk T1 T2 T3 T4 i k.
  - assert (E : i = -1) by (apply (unit_lo i g h); lra). rewrite E in *.
    destruct (sq_zero g h) as [Z0 Z1]; [lra|]. destruct (sq_zero c f) as [Z2 Z3]; [lra|]. rewrite Z0, Z1, Z2, Z3 in *.
    destruct (gimbal e d) as [Gc Gs]; [lra|]. rewrite ?cos_neg, ?sin_neg. rewrite ?Gc, ?Gs, ?cos_0, ?sin_0, ?cos_PI, ?sin_PI.
    destruct half_pi as (H1&H2&H3&H4). rewrite ?H1, ?H2, ?H3, ?H4. mext; lra.
  - assert (E : i = 1) by (apply (unit_hi i g h); lra). rewrite E in *.
    destruct (sq_zero g h) as [Z0 Z1]; [lra|]. destruct (sq_zero c f) as [Z2 Z3]; [lra|]. rewrite Z0, Z1, Z2, Z3 in *.
    destruct (gimbal e d) as [Gc Gs]; [lra|]. rewrite ?cos_neg, ?sin_neg. rewrite ?Gc, ?Gs, ?cos_0, ?sin_0, ?cos_PI, ?sin_PI.
    destruct half_pi as (H1&H2&H3&H4). rewrite ?H1, ?H2, ?H3, ?H4. mext; lra.
Qed.

(** ** Angles recovered from the matrix they make *)
Lemma tb_range b : -(PI/2) < b < PI/2 -> 0 < cos b /\ -1 < sin b < 1.
Proof.
  intros B. assert (C : 0 < cos b) by (apply cos_gt_0; lra). split; [exact C|]. pose proof (sin2_cos2 b) as Q. unfold Rsqr in Q. nra.
Qed.
Lemma pe_range b : 0 < b < PI -> 0 < sin b /\ -1 < cos b < 1.
Proof.
  intros B. assert (C : 0 < sin b) by (apply sin_gt_0; lra). split; [exact C|]. pose proof (sin2_cos2 b) as Q. unfold Rsqr in Q. nra.
Qed.
Ltac back k a b c :=
  unfold m00, m01, m02, m10, m11, m12, m20, m21, m22, mk3; cbn [row0 row1 row2 vx vy vz]; rsimpl; trig;
  rewrite ?Ropp_involutive; rcase; [|exfalso; lra]; rcase; [|exfalso; lra]; rewrite ?Ropp_involutive;
  apply vec_ext; cbn [vx vy vz];
  [transitivity (Ratan2 (k * sin a) (k * cos a)); [f_equal; ring|apply Ratan2_unique; lra]
  |first [apply asin_sin|apply acos_cos]; lra
  |transitivity (Ratan2 (k * sin c) (k * cos c)); [f_equal; ring|apply Ratan2_unique; lra]].
Lemma from_XYZ a b c : -PI < a <= PI -> -(PI/2) < b < PI/2 -> -PI < c <= PI -> ToEulerXYZ (FromEulerXYZ a b c) = V3 a b c.
Proof. intros A B C. destruct (tb_range b B) as [Cb Sb]. unfold ToEulerXYZ, FromEulerXYZ. back (cos b) a b c. Qed.
Lemma from_XZY a b c : -PI < a <= PI -> -(PI/2) < b < PI/2 -> -PI < c <= PI -> ToEulerXZY (FromEulerXZY a b c) = V3 a b c.
Proof. intros A B C. destruct (tb_range b B) as [Cb Sb]. unfold ToEulerXZY, FromEulerXZY. back (cos b) a b c. Qed.
Lemma from_YXZ a b c : -PI < a <= PI -> -(PI/2) < b < PI/2 -> -PI < c <= PI -> ToEulerYXZ (FromEulerYXZ a b c) = V3 a b c.
Proof. intros A B C. destruct (tb_range b B) as [Cb Sb]. unfold ToEulerYXZ, FromEulerYXZ. back (cos b) a b c. Qed.
Lemma from_YZX a b c : -PI < a <= PI -> -(PI/2) < b < PI/2 -> -PI < c <= PI -> ToEulerYZX (FromEulerYZX a b c) = V3 a b c.
Proof. intros A B C. destruct (tb_range b B) as [Cb Sb]. unfold ToEulerYZX, FromEulerYZX. back (cos b) a b c. Qed.
Lemma from_ZXY a b c : -PI < a <= PI -> -(PI/2) < b < PI/2 -> -PI < c <= PI -> ToEulerZXY (FromEulerZXY a b c) = V3 a b c.
Proof. intros A B C. destruct (tb_range b B) as [Cb Sb]. unfold ToEulerZXY, FromEulerZXY. back (cos b) a b c. Qed.
Lemma from_ZYX a b c : -PI < a <= PI -> -(PI/2) < b < PI/2 -> -PI < c <= PI -> ToEulerZYX (FromEulerZYX a b c) = V3 a b c.
Proof. intros A B C. destruct (tb_range b B) as [Cb Sb]. unfold ToEulerZYX, FromEulerZYX. back (cos b) a b c. Qed.
Lemma from_XYX a b c : -PI < a <= PI -> 0 < b < PI -> -PI < c <= PI -> ToEulerXYX (FromEulerXYX a b c) = V3 a b c.
Proof. intros A B C. destruct (pe_range b B) as [Cb Sb]. unfold ToEulerXYX, FromEulerXYX. back (sin b) a b c. Qed.
Lemma from_XZX a b c : -PI < a <= PI -> 0 < b < PI -> -PI < c <= PI -> ToEulerXZX (FromEulerXZX a b c) = V3 a b c.
Proof. intros A B C. destruct (pe_range b B) as [Cb Sb]. unfold ToEulerXZX, FromEulerXZX. back (sin b) a b c. Qed.
Lemma from_YXY a b c : -PI < a <= PI -> 0 < b < PI -> -PI < c <= PI -> ToEulerYXY (FromEulerYXY a b c) = V3 a b c.
Proof. intros A B C. destruct (pe_range b B) as [Cb Sb]. unfold ToEulerYXY, FromEulerYXY. back (sin b) a b c. Qed.
Lemma from_YZY a b c : -PI < a <= PI -> 0 < b < PI -> -PI < c <= PI -> ToEulerYZY (FromEulerYZY a b c) = V3 a b c.
Proof. intros A B C. destruct (pe_range b B) as [Cb Sb]. unfold ToEulerYZY, FromEulerYZY. back (sin b) a b c. Qed.
Lemma from_ZXZ a b c : -PI < a <= PI -> 0 < b < PI -> -PI < c <= PI -> ToEulerZXZ (FromEulerZXZ a b c) = V3 a b c.
Proof. intros A B C. destruct (pe_range b B) as [Cb Sb]. unfold ToEulerZXZ, FromEulerZXZ. back (sin b) a b c. Qed.
Lemma from_ZYZ a b c : -PI < a <= PI -> 0 < b < PI -> -PI < c <= PI -> ToEulerZYZ (FromEulerZYZ a b c) = V3 a b c.
Proof. intros A B C. destruct (pe_range b B) as [Cb Sb]. unfold ToEulerZYZ, FromEulerZYZ. back (sin b) a b c. Qed.

(** ** Quaternions from Euler angles *)
Lemma ex_unit : unitv ex /\ unitv ey /\ unitv ez. Proof. unfold unitv, dot, ex, ey, ez. cbn [vx vy vz]. repeat split; ring. Qed.
Lemma mat_ext (m n : mat3 R) : (forall v, apply m v = apply n v) -> m = n. Proof. apply apply_inj. Qed.
Lemma QRotate_R t : unitq (QRotateX t) /\ unitq (QRotateY t) /\ unitq (QRotateZ t) /\
  FromQuat (QRotateX t) = RotateX t /\ FromQuat (QRotateY t) = RotateY t /\ FromQuat (QRotateZ t) = RotateZ t.
Proof.
  destruct ex_unit as (U0 & U1 & U2).
  split; [exact (axis_angle_unit ex t U0)|]. split; [exact (axis_angle_unit ey t U1)|]. split; [exact (axis_angle_unit ez t U2)|].
  split; [|split]; apply mat_ext; intros v; rewrite <- QTransform_apply.
  - rewrite (proj1 (RotateXYZ_R t v)). exact (axis_angle_rodrigues ex t v U0).
  - rewrite (proj1 (proj2 (RotateXYZ_R t v))). exact (axis_angle_rodrigues ey t v U1).
  - rewrite (proj2 (proj2 (RotateXYZ_R t v))). exact (axis_angle_rodrigues ez t v U2).
Qed.
Lemma QEuler_R (p q r : quat R) : unitq p -> unitq q -> unitq r -> unitq (QEuler p q r) /\ FromQuat (QEuler p q r) = mulm (mulm (FromQuat p) (FromQuat q)) (FromQuat r).
Proof.
  intros P Q S. unfold QEuler. assert (U : unitq (QMul (QMul p q) r)) by auto using qmul_unit. rewrite (QNormalized_unit _ U). split; [exact U|].
  now rewrite !FromQuat_mul by auto using qmul_unit.
Qed.
Ltac qeuler := intros; match goal with |- context [QEuler ?p ?q ?r] => destruct (QEuler_R p q r) as [U E];
  [apply QRotate_R|apply QRotate_R|apply QRotate_R|rewrite E; split; [exact U|]] end;
  repeat match goal with
  | |- context [FromQuat (QRotateX ?t)] => rewrite (proj1 (proj2 (proj2 (proj2 (QRotate_R t)))))
  | |- context [FromQuat (QRotateY ?t)] => rewrite (proj1 (proj2 (proj2 (proj2 (proj2 (QRotate_R t))))))
  | |- context [FromQuat (QRotateZ ?t)] => rewrite (proj2 (proj2 (proj2 (proj2 (proj2 (QRotate_R t)))))) end.
Lemma qeuler_XYZ (a b c : R) : unitq (QFromEulerXYZ a b c) /\ FromQuat (QFromEulerXYZ a b c) = FromEulerXYZ a b c.
Proof. unfold QFromEulerXYZ. qeuler. now rewrite euler_XYZ. Qed.
Lemma qeuler_XZY (a b c : R) : unitq (QFromEulerXZY a b c) /\ FromQuat (QFromEulerXZY a b c) = FromEulerXZY a b c.
Proof. unfold QFromEulerXZY. qeuler. now rewrite euler_XZY. Qed.
Lemma qeuler_YXZ (a b c : R) : unitq (QFromEulerYXZ a b c) /\ FromQuat (QFromEulerYXZ a b c) = FromEulerYXZ a b c.
Proof. unfold QFromEulerYXZ. qeuler. now rewrite euler_YXZ. Qed.
Lemma qeuler_YZX (a b c : R) : unitq (QFromEulerYZX a b c) /\ FromQuat (QFromEulerYZX a b c) = FromEulerYZX a b c.
Proof. unfold QFromEulerYZX. qeuler. now rewrite euler_YZX. Qed.
Lemma qeuler_ZXY (a b c : R) : unitq (QFromEulerZXY a b c) /\ FromQuat (QFromEulerZXY a b c) = FromEulerZXY a b c.
Proof. unfold QFromEulerZXY. qeuler. now rewrite euler_ZXY. Qed.
Lemma qeuler_ZYX (a b c : R) : unitq (QFromEulerZYX a b c) /\ FromQuat (QFromEulerZYX a b c) = FromEulerZYX a b c.
Proof. unfold QFromEulerZYX. qeuler. now rewrite euler_ZYX. Qed.
Lemma qeuler_XYX (a b c : R) : unitq (QFromEulerXYX a b c) /\ FromQuat (QFromEulerXYX a b c) = FromEulerXYX a b c.
Proof. unfold QFromEulerXYX. qeuler. now rewrite euler_XYX. Qed.
Lemma qeuler_XZX (a b c : R) : unitq (QFromEulerXZX a b c) /\ FromQuat (QFromEulerXZX a b c) = FromEulerXZX a b c.
Proof. unfold QFromEulerXZX. qeuler. now rewrite euler_XZX. Qed.
Lemma qeuler_YXY (a b c : R) : unitq (QFromEulerYXY a b c) /\ FromQuat (QFromEulerYXY a b c) = FromEulerYXY a b c.
Proof. unfold QFromEulerYXY. qeuler. now rewrite euler_YXY. Qed.
Lemma qeuler_YZY (a b c : R) : unitq (QFromEulerYZY a b c) /\ FromQuat (QFromEulerYZY a b c) = FromEulerYZY a b c.
Proof. unfold QFromEulerYZY. qeuler. now rewrite euler_YZY. Qed.
Lemma qeuler_ZXZ (a b c : R) : unitq (QFromEulerZXZ a b c) /\ FromQuat (QFromEulerZXZ a b c) = FromEulerZXZ a b c.
Proof. unfold QFromEulerZXZ. qeuler. now rewrite euler_ZXZ. Qed.
Lemma qeuler_ZYZ (a b c : R) : unitq (QFromEulerZYZ a b c) /\ FromQuat (QFromEulerZYZ a b c) = FromEulerZYZ a b c.
Proof. unfold QFromEulerZYZ. qeuler. now rewrite euler_ZYZ. Qed.
