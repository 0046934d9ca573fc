(** Lemmas on the GJK search simplex. *)
From Coq Require Import Reals Psatz List Bool Classical.
From Verif Require Import Num NumR ScalarModel ScalarProofs Vec3Model GeoTypes GeoSpec GeoLemmas Vec3Props MatProofs MatProofs2 SphereSpec GjkModel GjkSpec.
Import ListNotations.
Open Scope R_scope.
Ltac Zify.zify_post_hook ::= idtac.

(** The invariant: the point of the simplex nearest to the origin is [- l d], [l > 0], where [d] is the next search direction, at right angles to the simplex. *)
Definition inv (S : simplex R) (d : pt) : Prop :=
  d <> origin /\
  match S with
  | S1 s0 => d = scale (-1) s0
  | S2 s0 s1 => s0 <> s1 /\ dot d s0 = dot d s1 /\ exists l m, 0 < l /\ 0 <= m <= 1 /\ scale (- l) d = plus (scale (1 - m) s0) (scale m s1)
  | S3 s0 s1 s2 => d = cross (minus s1 s0) (minus s2 s0) /\ exists l u v t, 0 < l /\ 0 <= u /\ 0 <= v /\ 0 <= t /\ u + v + t = 1 /\ scale (- l) d = plus (scale u s0) (plus (scale v s1) (scale t s2))
  end.
Definition points (S : simplex R) : list pt := match S with S1 a => [a] | S2 a b => [a; b] | S3 a b c => [a; b; c] end.

Lemma dot_pos_ne d : d <> origin -> 0 < dot d d.
Proof. intros D. destruct (dot_pos d) as [H|H]; [exact H|]. symmetry in H. now apply dot_zero in H. Qed.
(** A point [f] that sees the origin on the far side from [- l d]. *)
Lemma foot_range d l f : 0 < l -> d <> origin -> dot f f <= - l * dot f d -> - l * dot d d <= dot f d <= 0.
Proof.
  intros L D H. pose proof (cauchy_sq f d) as C. pose proof (dot_pos_ne d D) as DD. pose proof (dot_pos f) as F. assert (N : dot f d <= 0) by nra. split; [|exact N].
  destruct (Rle_lt_or_eq_dec _ _ N) as [N'|N']; [|nra]. assert (X : dot f f * dot d d <= - l * dot f d * dot d d) by (apply Rmult_le_compat_r; lra).
  apply Ropp_le_cancel. apply Rmult_le_reg_r with (- dot f d); [lra|]. nra.
Qed.
Lemma edge_dir e s : cross e (cross e s) = minus (scale (dot e s) e) (scale (dot e e) s).
Proof. unfold cross, minus, scale, dot. apply vec_ext; cbn [vx vy vz]; ring. Qed.
(** Descending to the edge from an old vertex to the new point. *)
Lemma edge_step d l q s p : 0 < l -> d <> origin -> q = scale (- l) d -> dot d s = - l * dot d d -> 0 <= dot d p ->
  let e := minus p s in let d' := cross e (cross e s) in dot d' (minus q s) <= 0 ->
  s <> p /\ dot d' s = dot d' p /\ exists l' m, 0 < l' /\ 0 <= m <= 1 /\ scale (- l') d' = plus (scale (1 - m) s) (scale m p).
Proof.
  intros L D Q DS DP e d' H. pose proof (dot_pos_ne d D) as DD. assert (DE : dot d e = dot d p - dot d s) by apply dot_minus_r. assert (DEP : 0 < dot d e) by (rewrite DE, DS; nra).
  assert (EN : e <> origin) by (intros E; rewrite E in DEP; unfold dot, origin in DEP; cbn in DEP; lra). pose proof (dot_pos_ne e EN) as EE.
  split; [intros ->; apply EN; unfold e, minus, origin; apply vec_ext; cbn [vx vy vz]; ring|].
  assert (DO : dot d' e = 0) by (unfold d'; rewrite edge_dir, dot_minus_l, !dot_scale_l, (dot_comm s e); ring).
  assert (PS : p = plus s e) by (unfold e, plus, minus; apply vec_ext; cbn [vx vy vz]; ring).
  split; [rewrite PS, dot_plus_r, DO; ring|].
  set (E := dot e e) in *. set (m := - (dot e s) / E). set (f := plus (scale (1 - m) s) (scale m p)).
  assert (F1 : f = plus s (scale m e)) by (unfold f, e, plus, scale, minus; apply vec_ext; cbn [vx vy vz]; ring).
  assert (F2 : f = scale (- / E) d') by (rewrite F1; unfold d'; rewrite edge_dir; fold E; unfold m, plus, scale, minus; apply vec_ext; cbn [vx vy vz]; field; lra).
  assert (IP : 0 < / E) by now apply Rinv_0_lt_compat.
  assert (FF : dot f f <= - l * dot f d).
  { assert (X : - l * dot f d = dot f q) by (rewrite Q, dot_scale_r; ring). rewrite X.
    assert (A1 : dot f f = - / E * dot d' s) by (rewrite F2 at 1; rewrite dot_scale_l, F1, dot_plus_r, dot_scale_r, DO; ring). assert (A2 : dot f q = - / E * dot d' q) by (rewrite F2, dot_scale_l; reflexivity). rewrite A1, A2. rewrite dot_minus_r in H. nra. }
  destruct (foot_range d l f L D FF) as (R1 & R2). assert (FD : dot f d = dot d s + m * dot d e) by (rewrite F1, dot_plus_l, dot_scale_l, (dot_comm s), (dot_comm e); reflexivity).
  exists (/ E), m. split; [exact IP|]. split; [|now rewrite <- F2].
  rewrite FD, DS in R1, R2. rewrite DS in DE. split.
  - destruct (Rle_or_lt 0 m) as [M|M]; [exact M|]. nra.
  - destruct (Rle_or_lt m 1) as [M|M]; [exact M|]. nra.
Qed.
(** Descending to a face with the new point. *)
Lemma face_decomposition (a b w : pt) : let N := cross a b in let A := dot a a in let B := dot b b in let x := dot a b in
  scale (A * B - x * x) w = plus (scale (B * dot w a - x * dot w b) a) (plus (scale (A * dot w b - x * dot w a) b) (scale (dot w N) N)).
Proof. cbv zeta. unfold cross, plus, scale, dot. apply vec_ext; cbn [vx vy vz]; ring. Qed.
Lemma face_step d l q si sj p N k : 0 < l -> d <> origin -> q = scale (- l) d -> dot d si = - l * dot d d -> dot d sj = - l * dot d d -> 0 <= dot d p ->
  let a := minus si p in let b := minus sj p in let w := scale (-1) p in
  N = scale k (cross a b) -> k * k = 1 -> cross a b <> origin -> dot N p <= 0 -> dot N (minus q p) <= 0 ->
  0 <= dot b b * dot w a - dot a b * dot w b -> 0 <= dot a a * dot w b - dot a b * dot w a ->
  exists u v t, 0 <= u /\ 0 <= v /\ 0 <= t /\ u + v + t = 1 /\ scale (dot N p / dot N N) N = plus (scale u si) (plus (scale v sj) (scale t p)).
Proof.
  intros L D Q DI DJ DP a b w NE KK NZ NP NQ T1 T2. pose proof (dot_pos_ne d D) as DD. pose proof (dot_pos_ne _ NZ) as NN. set (N0 := cross a b) in *.
  assert (G : dot N N = dot a a * dot b b - dot a b * dot a b) by (rewrite NE, dot_scale_l, dot_scale_r; replace (k * (k * dot N0 N0)) with (k * k * dot N0 N0) by ring; rewrite KK; unfold N0; rewrite cross_sq; ring).
  assert (NNN : dot N N = dot N0 N0) by (rewrite G; unfold N0; rewrite cross_sq; ring). set (g := dot N N) in *. assert (GP : 0 < g) by lra.
  set (u := (dot b b * dot w a - dot a b * dot w b) / g). set (v := (dot a a * dot w b - dot a b * dot w a) / g). assert (IG : 0 < / g) by now apply Rinv_0_lt_compat.
  assert (U : 0 <= u) by (unfold u, Rdiv; apply Rmult_le_pos; lra). assert (V : 0 <= v) by (unfold v, Rdiv; apply Rmult_le_pos; lra).
  set (f := plus (scale u si) (plus (scale v sj) (scale (1 - u - v) p))). assert (F1 : f = plus p (plus (scale u a) (scale v b))) by (unfold f, a, b, plus, scale, minus; apply vec_ext; cbn [vx vy vz]; ring).
  assert (F2 : f = scale (dot N p / g) N).
  { pose proof (face_decomposition a b w) as FD. cbv zeta in FD. rewrite <- G in FD. fold N0 in FD. assert (WN : scale (dot w N0) N0 = scale (dot w N) N) by (rewrite NE, dot_scale_r, scale_scale; f_equal; replace (k * dot w N0 * k) with (k * k * dot w N0) by ring; rewrite KK; ring). rewrite WN in FD.
    assert (FD' : w = plus (scale u a) (plus (scale v b) (scale (dot w N / g) N))).
    { transitivity (scale (/ g) (scale g w)); [rewrite scale_scale, Rinv_l, scale_1 by lra; reflexivity|]. rewrite FD. unfold u, v, plus, scale, Rdiv. apply vec_ext; cbn [vx vy vz]; ring. }
    assert (WNP : dot w N = - dot N p) by (unfold w; rewrite dot_scale_l, dot_comm; ring). rewrite WNP in FD'.
    rewrite F1. unfold w in FD'. apply vec_ext; [apply (f_equal vx) in FD'|apply (f_equal vy) in FD'|apply (f_equal vz) in FD']; unfold plus, scale in *; cbn [vx vy vz] in *; unfold Rdiv in *; lra. }
  exists u, v, (1 - u - v). split; [exact U|]. split; [exact V|]. split; [|split; [ring|symmetry; exact F2]].
  assert (NA : dot N a = 0) by (rewrite NE, dot_scale_l; unfold N0; rewrite dot_comm, cross_dot_l; ring). assert (NB : dot N b = 0) by (rewrite NE, dot_scale_l; unfold N0; rewrite dot_comm, cross_dot_r; ring).
  assert (NF : dot N f = dot N p) by (rewrite F1, !dot_plus_r, !dot_scale_r, NA, NB; ring).
  assert (FF : dot f f <= - l * dot f d).
  { assert (X : - l * dot f d = dot f q) by (rewrite Q, dot_scale_r; ring). rewrite X. rewrite F2 at 1. rewrite dot_scale_l, NF. rewrite F2, dot_scale_l. rewrite dot_minus_r in NQ. assert (dot N p / g <= 0) by (unfold Rdiv; nra). nra. }
  destruct (foot_range d l f L D FF) as (R1 & _). assert (FD : dot f d = dot d p + u * (dot d si - dot d p) + v * (dot d sj - dot d p)) by (rewrite F1, !dot_plus_l, !dot_scale_l; unfold a, b; rewrite !dot_minus_l, (dot_comm si), (dot_comm sj), (dot_comm p); ring).
  rewrite FD, DI, DJ in R1. destruct (Rle_or_lt 0 (1 - u - v)) as [M|M]; [exact M|]. assert (0 < l * dot d d) by nra. nra.
Qed.
(** Algebra for the tetrahedron. *)
Lemma turn (a b c w : pt) : (dot a a * dot w b - dot a b * dot w a) * dot w (cross a c) - (dot a a * dot w c - dot a c * dot w a) * dot w (cross a b) = - dot a (cross b c) * (dot a a * dot w w - dot w a * dot w a).
Proof. unfold cross, dot. cbn [vx vy vz]. ring. Qed.
Lemma turn_neg (a b c w : pt) : dot a (cross b c) < 0 -> 0 < dot w (cross a b) -> dot a a * dot w b - dot a b * dot w a < 0 -> 0 < dot a a * dot w c - dot a c * dot w a -> dot w (cross a c) < 0.
Proof.
  intros D W P Q. pose proof (turn a b c w) as T. pose proof (cauchy_sq w a) as C. set (k := dot w (cross a c)) in *. set (P' := dot a a * dot w b - dot a b * dot w a) in *. set (Q' := dot a a * dot w c - dot a c * dot w a) in *.
  assert (0 <= - dot a (cross b c) * (dot a a * dot w w - dot w a * dot w a)) by (apply Rmult_le_pos; lra). assert (0 < Q' * dot w (cross a b)) by (now apply Rmult_lt_0_compat). clearbody k P' Q'. nra.
Qed.
Lemma turn_pos (a b c w : pt) : 0 < dot a (cross b c) -> dot w (cross a b) < 0 -> dot a a * dot w b - dot a b * dot w a < 0 -> 0 < dot a a * dot w c - dot a c * dot w a -> 0 < dot w (cross a c).
Proof.
  intros D W P Q. pose proof (turn a b c w) as T. pose proof (cauchy_sq w a) as C. set (k := dot w (cross a c)) in *. set (P' := dot a a * dot w b - dot a b * dot w a) in *. set (Q' := dot a a * dot w c - dot a c * dot w a) in *.
  assert (0 <= dot a (cross b c) * (dot a a * dot w w - dot w a * dot w a)) by (apply Rmult_le_pos; lra). assert (0 < Q' * - dot w (cross a b)) by (apply Rmult_lt_0_compat; lra). clearbody k P' Q'. nra.
Qed.
(** Going round the three edges at the new point always one way is impossible. *)
Lemma no_cycle_unit a b c X Y Z : -1 <= X <= 1 -> -1 <= Y <= 1 -> -1 <= Z <= 1 -> 0 < a -> b < a * X -> a * Z < c -> a < c * Z -> c * Y < b -> c < b * Y -> b * X < a -> False.
Proof.
  intros HX HY HZ A p1 p2 q0 q1 r2 r1. assert (C : 0 < c). { destruct (Rlt_or_le 0 c) as [C|C]; [exact C|exfalso]. destruct (Rle_or_lt 0 Z); nra. }
  assert (AC : a < c) by nra. assert (B : 0 < b). { destruct (Rlt_or_le 0 b) as [B|B]; [exact B|exfalso]. destruct (Rle_or_lt 0 Y); nra. }
  assert (c < b) by nra. assert (b < a) by nra. lra.
Qed.
Lemma no_cycle A B C x y z wa wb wc : 0 < A -> 0 < B -> 0 < C -> x * x <= A * B -> y * y <= B * C -> z * z <= C * A -> (0 < wa \/ 0 < wb \/ 0 < wc) ->
  A * wb - x * wa < 0 -> 0 < A * wc - z * wa -> C * wa - z * wc < 0 -> 0 < C * wb - y * wc -> B * wc - y * wb < 0 -> 0 < B * wa - x * wb -> False.
Proof.
  intros PA PB PC CX CY CZ POS P1 P2 Q0 Q1 R2 R1.
  pose proof (sqrt_lt_R0 _ PA) as SA. pose proof (sqrt_lt_R0 _ PB) as SB. pose proof (sqrt_lt_R0 _ PC) as SC. pose proof (sqrt_sqrt A ltac:(lra)) as EA. pose proof (sqrt_sqrt B ltac:(lra)) as EB. pose proof (sqrt_sqrt C ltac:(lra)) as EC.
  set (a := sqrt A) in *. set (b := sqrt B) in *. set (c := sqrt C) in *. clearbody a b c.
  assert (UNIT : forall u v t, 0 < u -> 0 < v -> t * t <= u * u * (v * v) -> -1 <= t / (u * v) <= 1).
  { intros u v t U V H. assert (P : 0 < u * v) by nra. assert (t = t / (u * v) * (u * v)) by (field; lra). set (r := t / (u * v)) in *. clearbody r. subst t. split; apply Rnot_lt_le; intros K; assert (1 < r * r) by nra; assert (0 < u * v * (u * v)) by nra; nra. }
  assert (HX : -1 <= x / (a * b) <= 1) by (apply UNIT; try assumption; rewrite EA, EB; exact CX). assert (HY : -1 <= y / (b * c) <= 1) by (apply UNIT; try assumption; rewrite EB, EC; exact CY). assert (HZ : -1 <= z / (c * a) <= 1) by (apply UNIT; try assumption; rewrite EC, EA; exact CZ). clear UNIT CX CY CZ.
  assert (X1 : x = x / (a * b) * (a * b)) by (field; lra). assert (Y1 : y = y / (b * c) * (b * c)) by (field; lra). assert (Z1 : z = z / (c * a) * (c * a)) by (field; lra).
  set (X := x / (a * b)) in *. set (Y := y / (b * c)) in *. set (Z := z / (c * a)) in *. clearbody X Y Z.
  assert (WA : wa = wa / a * a) by (field; lra). assert (WB : wb = wb / b * b) by (field; lra). assert (WC : wc = wc / c * c) by (field; lra).
  set (al := wa / a) in *. set (be := wb / b) in *. set (ga := wc / c) in *. clearbody al be ga. subst x y z wa wb wc A B C.
  assert (p1 : be < al * X). { apply Rmult_lt_reg_l with (a * a * b); [repeat apply Rmult_lt_0_compat; assumption|]. lra. }
  assert (p2 : al * Z < ga). { apply Rmult_lt_reg_l with (a * a * c); [repeat apply Rmult_lt_0_compat; assumption|]. lra. }
  assert (q0 : al < ga * Z). { apply Rmult_lt_reg_l with (c * c * a); [repeat apply Rmult_lt_0_compat; assumption|]. lra. }
  assert (q1 : ga * Y < be). { apply Rmult_lt_reg_l with (c * c * b); [repeat apply Rmult_lt_0_compat; assumption|]. lra. }
  assert (r2 : ga < be * Y). { apply Rmult_lt_reg_l with (b * b * c); [repeat apply Rmult_lt_0_compat; assumption|]. lra. }
  assert (r1 : be * X < al). { apply Rmult_lt_reg_l with (b * b * a); [repeat apply Rmult_lt_0_compat; assumption|]. lra. }
  destruct POS as [P|[P|P]].
  - apply (no_cycle_unit al be ga X Y Z); try assumption. nra.
  - apply (no_cycle_unit be ga al Y Z X); try assumption. nra.
  - apply (no_cycle_unit ga al be Z X Y); try assumption. nra.
Qed.
Lemma chain F1 p p' F2 q q' F3 r r' : ~ (p <= 0 /\ p' <= 0) -> ~ (q <= 0 /\ q' <= 0) -> ~ (r <= 0 /\ r' <= 0) ->
  ~ (F2 < 0 /\ 0 <= q /\ 0 <= p') -> ~ (F3 < 0 /\ 0 <= r /\ 0 <= q') ->
  (F1 < 0 -> p < 0 -> 0 < p' -> F2 < 0) -> (F2 < 0 -> q < 0 -> 0 < q' -> F3 < 0) ->
  (p < 0 -> 0 < p' -> q < 0 -> 0 < q' -> r < 0 -> 0 < r' -> False) -> F1 < 0 -> p < 0 -> False.
Proof.
  intros A B C D E T1 T2 CY H1 H2. assert (p' > 0) by lra. assert (F2 < 0) by auto. assert (q < 0) by lra. assert (q' > 0) by lra. assert (F3 < 0) by auto. assert (r < 0) by lra. apply CY; lra.
Qed.
Lemma no_face P1 P2 R1 R2 Q0 Q1 T013 T023 T123 : ~ (P1 <= 0 /\ P2 <= 0) -> ~ (R1 <= 0 /\ R2 <= 0) -> ~ (Q0 <= 0 /\ Q1 <= 0) ->
  ~ (T013 < 0 /\ 0 <= R1 /\ 0 <= P1) -> ~ (T023 < 0 /\ 0 <= Q0 /\ 0 <= P2) -> ~ (T123 < 0 /\ 0 <= R2 /\ 0 <= Q1) ->
  (T013 < 0 -> P1 < 0 -> 0 < P2 -> T023 < 0) -> (T023 < 0 -> P2 < 0 -> 0 < P1 -> T013 < 0) -> (T123 < 0 -> R2 < 0 -> 0 < R1 -> T013 < 0) -> (T013 < 0 -> R1 < 0 -> 0 < R2 -> T123 < 0) -> (T023 < 0 -> Q0 < 0 -> 0 < Q1 -> T123 < 0) -> (T123 < 0 -> Q1 < 0 -> 0 < Q0 -> T023 < 0) ->
  (P1 < 0 -> 0 < P2 -> Q0 < 0 -> 0 < Q1 -> R2 < 0 -> 0 < R1 -> False) -> (P2 < 0 -> 0 < P1 -> Q1 < 0 -> 0 < Q0 -> R1 < 0 -> 0 < R2 -> False) -> 0 <= T013 /\ 0 <= T023 /\ 0 <= T123.
Proof.
  intros B1 B2 B3 B4 B5 B6 t1 t2 t3 t4 t5 t6 CY1 CY2.
    assert (I1 : 0 <= T013).
    { apply Rnot_lt_le. intros X. assert (Y : P1 < 0 \/ R1 < 0) by (destruct (Rlt_or_le P1 0); [now left|right; lra]). destruct Y as [Y|Y].
      - apply (chain T013 P1 P2 T023 Q0 Q1 T123 R2 R1); try assumption; try (intros (K1 & K2); clear - B1 B2 B3 B4 B5 B6 K1 K2; tauto); auto.
      - apply (chain T013 R1 R2 T123 Q1 Q0 T023 P2 P1); try assumption; try (intros (K1 & K2); clear - B1 B2 B3 B4 B5 B6 K1 K2; tauto); auto. }
    assert (I2 : 0 <= T023).
    { apply Rnot_lt_le. intros X. assert (Y : Q0 < 0 \/ P2 < 0) by (destruct (Rlt_or_le Q0 0); [now left|right; lra]). destruct Y as [Y|Y].
      - apply (chain T023 Q0 Q1 T123 R2 R1 T013 P1 P2); try assumption; try (intros (K1 & K2); clear - B1 B2 B3 B4 B5 B6 K1 K2; tauto); auto.
      - apply (chain T023 P2 P1 T013 R1 R2 T123 Q1 Q0); try assumption; try (intros (K1 & K2); clear - B1 B2 B3 B4 B5 B6 K1 K2; tauto); auto. }
    assert (I3 : 0 <= T123).
    { apply Rnot_lt_le. intros X. assert (Y : R2 < 0 \/ Q1 < 0) by (destruct (Rlt_or_le R2 0); [now left|right; lra]). destruct Y as [Y|Y].
      - apply (chain T123 R2 R1 T013 P1 P2 T023 Q0 Q1); try assumption; try (intros (K1 & K2); clear - B1 B2 B3 B4 B5 B6 K1 K2; tauto); auto.
      - apply (chain T123 Q1 Q0 T023 P2 P1 T013 R1 R2); try assumption; try (intros (K1 & K2); clear - B1 B2 B3 B4 B5 B6 K1 K2; tauto); auto. }
    auto.
Qed.
Lemma le_one l k P S : 0 < l * k -> 0 <= P -> -1 * P = S * (- l * k - P) -> S <= 1.
Proof. intros L H E. apply Rnot_lt_le. intros K. assert (0 < l * k + P) by lra. nra. Qed.
Section Step.
  Context (M : pt -> Prop) (MC : convex M) (NM : ~ M origin).
  Definition near (r : R) : Prop := exists m, M m /\ norm m <= r.
  Lemma mid s p m : M s -> M p -> 0 <= m <= 1 -> M (plus (scale (1 - m) s) (scale m p)).
  Proof. intros A B H. replace (plus (scale (1 - m) s) (scale m p)) with (plus s (scale m (minus p s))) by (unfold plus, scale, minus; apply vec_ext; cbn [vx vy vz]; ring). now apply MC. Qed.
  Lemma mid3 a b c u v t : M a -> M b -> M c -> 0 <= u -> 0 <= v -> 0 <= t -> u + v + t = 1 -> M (plus (scale u a) (plus (scale v b) (scale t c))).
  Proof.
    intros A B C U V T E. destruct (Req_dec (v + t) 0) as [Z|Z].
    - assert (v = 0) by lra. assert (t = 0) by lra. assert (u = 1) by lra. subst. replace (plus _ _) with a; [exact A|]. unfold plus, scale. apply vec_ext; cbn [vx vy vz]; ring.
    - assert (P : 0 < v + t) by lra. assert (I : 0 < / (v + t)) by now apply Rinv_0_lt_compat. pose proof (mid b c (t / (v + t)) B C) as Q. assert (W : 0 <= t / (v + t) <= 1) by (unfold Rdiv; pose proof (Rinv_l (v + t) Z); split; nra). specialize (Q W).
      pose proof (mid a _ (v + t) A Q ltac:(lra)) as Y. replace (plus (scale u a) _) with (plus (scale (1 - (v + t)) a) (scale (v + t) (plus (scale (1 - t / (v + t)) b) (scale (t / (v + t)) c)))); [exact Y|].
      unfold plus, scale. apply vec_ext; cbn [vx vy vz]; replace u with (1 - (v + t)) by lra; field; lra.
  Qed.
  Lemma mid4 a b c d u v t r : M a -> M b -> M c -> M d -> 0 <= u -> 0 <= v -> 0 <= t -> 0 <= r -> u + v + t + r = 1 -> M (plus (scale u a) (plus (scale v b) (plus (scale t c) (scale r d)))).
  Proof.
    intros A B C D U V T W E. destruct (Req_dec r 1) as [Z|Z].
    - assert (u = 0) by lra. assert (v = 0) by lra. assert (t = 0) by lra. subst. replace (plus _ _) with d; [exact D|]. unfold plus, scale. apply vec_ext; cbn [vx vy vz]; ring.
    - assert (P : 0 < 1 - r) by lra. assert (I : 0 < / (1 - r)) by now apply Rinv_0_lt_compat. assert (Q : M (plus (scale (u / (1 - r)) a) (plus (scale (v / (1 - r)) b) (scale (t / (1 - r)) c)))) by (apply mid3; try assumption; try (unfold Rdiv; apply Rmult_le_pos; lra); replace (u / (1 - r) + v / (1 - r) + t / (1 - r)) with ((u + v + t) / (1 - r)) by (field; lra); replace (u + v + t) with (1 - r) by lra; field; lra).
      pose proof (mid _ d r Q D ltac:(lra)) as Y. replace (plus (scale u a) _) with (plus (scale (1 - r) (plus (scale (u / (1 - r)) a) (plus (scale (v / (1 - r)) b) (scale (t / (1 - r)) c)))) (scale r d)); [exact Y|].
      unfold plus, scale. apply vec_ext; cbn [vx vy vz]; field; lra.
  Qed.
  Lemma not_zero d f k : M f -> f = scale k d -> d <> origin.
  Proof. intros F E D. apply NM. replace origin with f; [exact F|]. rewrite E, D. unfold scale, origin. apply vec_ext; cbn [vx vy vz]; ring. Qed.
  Definition good (S : simplex R) (d : pt) : Prop := inv S d /\ forall p, In p (points S) -> M p.
  (** What an update may lead to. *)
  Definition after (r : R) (o : option (simplex R * pt)) : Prop := match o with None => near r | Some (S', d') => good S' d' end.

  Lemma edge_good d l q s p e0 : 0 < l -> d <> origin -> q = scale (- l) d -> dot d s = - l * dot d d -> 0 <= dot d p -> M s -> M p ->
    e0 = cross (minus p s) (cross (minus p s) s) -> dot e0 (minus q s) <= 0 -> good (S2 s p) e0.
  Proof.
    intros L D Q DS DP MS MP E H. destruct (edge_step d l q s p L D Q DS DP) as (NE & EQ & l' & m & L' & MM & F); [now rewrite <- E|]. rewrite <- E in *. assert (MF : M (plus (scale (1 - m) s) (scale m p))) by now apply mid.
    split; [|intros x [<-|[<-|[]]]; assumption]. split; [exact (not_zero e0 _ (- l') MF (eq_sym F))|]. split; [exact NE|]. split; [exact EQ|]. exists l', m. auto.
  Qed.
  Lemma edge_dir_p s p : cross (minus p s) (cross (minus p s) p) = cross (minus p s) (cross (minus p s) s).
  Proof. unfold cross, minus. apply vec_ext; cbn [vx vy vz]; ring. Qed.

  Lemma update2 s0 d p : good (S1 s0) d -> M p -> 0 <= dot d p ->
    after (43 / 1000) (UpdateSimplex2 s0 p) /\ (1 <= dot s0 s0 -> after (1 / 1000) (UpdateSimplex2 s0 p)).
  Proof.
    intros ((D & E) & IM) MP DP. assert (MS : M s0) by (apply IM; now left). unfold UpdateSimplex2. cbv zeta. rewrite LengthSq_R. change (@Cross R Num_R) with cross. change (@vsub R Num_R) with minus. rewrite !edge_dir_p. set (e := minus p s0). set (d' := cross e (cross e s0)).
    assert (QE : s0 = scale (- 1) d) by (rewrite E, scale_scale; replace (-1 * -1) with 1 by ring; now rewrite scale_1). assert (DS : dot d s0 = - 1 * dot d d) by (rewrite QE at 1; apply dot_scale_r).
    assert (H0 : dot d' (minus s0 s0) <= 0) by (right; unfold minus, dot; cbn [vx vy vz]; ring).
    assert (G : good (S2 s0 p) d') by (apply (edge_good d 1 s0 s0 p d'); try assumption; [lra|reflexivity]).
    change (nltb (nlit 1 10000000) (dot d' d')) with (Rltb (nlit 1 10000000) (dot d' d')). rewrite nlit_R. destruct (Rltb_spec (IZR 1 / IZR (Z.pos 10000000)) (dot d' d')) as [T|T]; [split; [exact G|intros _; exact G]|].
    destruct G as ((_ & NE & _ & l' & m & L' & MM & F) & _). clear H0.
    assert (EN : e <> origin) by (intros X; apply NE; unfold e, minus, origin in X; apply vec_ext; [apply (f_equal vx) in X|apply (f_equal vy) in X|apply (f_equal vz) in X]; cbn [vx vy vz] in X; lra). pose proof (dot_pos_ne e EN) as EE.
    set (f := plus (scale (1 - m) s0) (scale m p)) in *. assert (F1 : f = plus s0 (scale m e)) by (unfold f, e, plus, scale, minus; apply vec_ext; cbn [vx vy vz]; ring).
    assert (DE : dot d' e = 0) by (unfold d'; rewrite edge_dir, dot_minus_l, !dot_scale_l, (dot_comm s0 e); ring). assert (FE : dot f e = 0) by (rewrite <- F, dot_scale_l, DE; ring).
    assert (HD : d' = scale (- dot e e) f).
    { unfold d'. rewrite edge_dir. assert (X : dot s0 e + m * dot e e = 0) by (rewrite <- FE, F1, dot_plus_l, dot_scale_l; ring). rewrite F1. unfold minus, plus, scale. apply vec_ext; cbn [vx vy vz]; rewrite (dot_comm e s0); replace (dot s0 e) with (- m * dot e e) by lra; ring. }
    assert (DD : dot d' d' = dot e e * dot e e * dot f f) by (rewrite HD, dot_scale_l, dot_scale_r; ring).
    assert (SP : dot s0 p = dot f f - m * (1 - m) * dot e e).
    { assert (S0 : s0 = minus f (scale m e)) by (rewrite F1; unfold minus, plus, scale; apply vec_ext; cbn [vx vy vz]; ring). assert (PP : p = plus f (scale (1 - m) e)) by (unfold f, e, plus, scale, minus; apply vec_ext; cbn [vx vy vz]; ring). rewrite S0 at 1. rewrite PP at 1. rewrite dot_minus_l, !dot_plus_r, !dot_scale_l, !dot_scale_r, (dot_comm e f), FE. ring. }
    assert (SP0 : dot s0 p <= 0) by (rewrite E, dot_scale_l in DP; lra). pose proof (dot_pos f) as FF.
    assert (M4 : m * (1 - m) <= / 4) by (pose proof (Rle_0_sqr (m - / 2)) as X; unfold Rsqr in X; lra). assert (Q4 : 4 * dot f f <= dot e e) by (pose proof (Rmult_le_compat_r (dot e e) _ _ (Rlt_le _ _ EE) M4); lra). assert (MF : M f) by now apply mid.
    assert (EES : dot s0 s0 <= dot e e) by (unfold e; rewrite dot_minus_l, !dot_minus_r, (dot_comm p s0); pose proof (dot_pos p); lra).
    assert (HF : exists h, h = dot f f) by eauto. destruct HF as (h & HF). rewrite <- ?HF in *. set (k := dot e e) in *. clearbody k. rewrite DD in T. assert (IZ : IZR 1 / IZR (Z.pos 10000000) = / 10000000) by (cbn; lra). rewrite IZ in T.
    split.
    - exists f. split; [exact MF|]. apply norm_sq_le; [lra|]. rewrite <- HF. destruct (Rle_or_lt h (43 / 1000 * (43 / 1000))) as [X|X]; [exact X|exfalso].
      assert (0 < h) by lra. assert (Y : (4 * h) * (4 * h) * h <= k * k * h) by (apply Rmult_le_compat_r; [lra|]; apply Rmult_le_compat; lra). assert (Z : (43 / 1000 * (43 / 1000)) * (43 / 1000 * (43 / 1000)) * (43 / 1000 * (43 / 1000)) <= h * h * h) by (apply Rmult_le_compat; [lra|lra|apply Rmult_le_compat; lra|lra]). lra.
    - intros S. exists f. split; [exact MF|]. apply norm_sq_le; [lra|]. rewrite <- HF. assert (1 <= k) by lra. assert (1 * 1 * h <= k * k * h) by (apply Rmult_le_compat_r; [lra|]; apply Rmult_le_compat; lra). lra.
  Qed.

  Lemma face_good d l q si sj p N k : 0 < l -> d <> origin -> q = scale (- l) d -> dot d si = - l * dot d d -> dot d sj = - l * dot d d -> 0 <= dot d p -> M si -> M sj -> M p ->
    let a := minus si p in let b := minus sj p in let w := scale (-1) p in
    N = scale k (cross a b) -> k * k = 1 -> cross a b <> origin -> dot N p <= 0 -> dot N (minus q p) <= 0 ->
    0 <= dot b b * dot w a - dot a b * dot w b -> 0 <= dot a a * dot w b - dot a b * dot w a ->
    (exists f, M f /\ dot f f * dot N N = dot N p * dot N p) /\
    (N = cross (minus sj si) (minus p si) -> good (S3 si sj p) N) /\ (N = cross (minus si sj) (minus p sj) -> good (S3 sj si p) N).
  Proof.
    intros L D Q DI DJ DP MI MJ MP a b w NE KK NZ NP NQ T1 T2. destruct (face_step d l q si sj p N k L D Q DI DJ DP NE KK NZ NP NQ T1 T2) as (u & v & t & U & V & W & S & F).
    assert (NNZ : N <> origin) by (intros X; apply NZ; rewrite NE in X; transitivity (scale (k * k) (cross a b)); [now rewrite KK, scale_1|]; rewrite <- scale_scale; rewrite X; unfold scale, origin; apply vec_ext; cbn [vx vy vz]; ring).
    pose proof (dot_pos_ne N NNZ) as NN. assert (MF : M (scale (dot N p / dot N N) N)) by (rewrite F; apply mid3; assumption).
    assert (NP' : dot N p < 0) by (destruct NP as [NP|NP]; [exact NP|exfalso]; apply NM; replace origin with (scale (dot N p / dot N N) N); [exact MF|]; rewrite NP; unfold scale, origin, Rdiv; apply vec_ext; cbn [vx vy vz]; ring).
    assert (LL : 0 < - (dot N p / dot N N)) by (unfold Rdiv; assert (0 < / dot N N) by (now apply Rinv_0_lt_compat); nra).
    split; [|split].
    - exists (scale (dot N p / dot N N) N). split; [exact MF|]. rewrite dot_scale_l, dot_scale_r. field. lra.
    - intros E. split; [|intros x [<-|[<-|[<-|[]]]]; assumption]. split; [exact NNZ|]. split; [exact E|]. exists (- (dot N p / dot N N)), u, v, t. rewrite Ropp_involutive. auto 7.
    - intros E. split; [|intros x [<-|[<-|[<-|[]]]]; assumption]. split; [exact NNZ|]. split; [exact E|]. exists (- (dot N p / dot N N)), v, u, t. rewrite Ropp_involutive. split; [exact LL|]. split; [exact V|]. split; [exact U|]. split; [exact W|]. split; [lra|]. rewrite F. unfold plus, scale. apply vec_ext; cbn [vx vy vz]; ring.
  Qed.

  Lemma update3 s0 s1 d p : good (S2 s0 s1) d -> M p -> 0 <= dot d p -> after (1 / 1000) (UpdateSimplex3 s0 s1 p).
  Proof.
    intros ((D & N01 & EQ & l & m & L & MM & F) & IM) MP DP. assert (M0 : M s0) by (apply IM; cbn; auto). assert (M1 : M s1) by (apply IM; cbn; auto).
    set (q := plus (scale (1 - m) s0) (scale m s1)) in *. assert (DQ : dot d q = - l * dot d d) by (rewrite <- F; apply dot_scale_r).
    assert (D0 : dot d s0 = - l * dot d d) by (rewrite <- DQ; unfold q; rewrite dot_plus_r, !dot_scale_r, <- EQ; ring). assert (D1 : dot d s1 = - l * dot d d) by now rewrite <- EQ.
    pose proof (dot_pos_ne d D) as DD. assert (LD : 0 < l * dot d d) by nra.
    unfold UpdateSimplex3. cbv zeta. change (@Cross R Num_R) with cross. change (@Dot R Num_R) with dot. rewrite LengthSq_R. change (@vsub R Num_R) with minus.
    set (a := minus s0 p). set (b := minus s1 p). set (w := scale (-1) p).
    assert (TN : cross (minus p s0) (minus p s1) = cross a b) by (unfold cross, a, b, minus; apply vec_ext; cbn [vx vy vz]; ring). rewrite TN.
    assert (T12 : dot s1 (cross (minus p s1) (cross a b)) = dot b b * dot w a - dot a b * dot w b) by (unfold cross, dot, a, b, w, scale, minus; cbn [vx vy vz]; ring).
    assert (T02 : dot s0 (cross (cross a b) (minus p s0)) = dot a a * dot w b - dot a b * dot w a) by (unfold cross, dot, a, b, w, scale, minus; cbn [vx vy vz]; ring).
    rewrite T12, T02. change (@n0 R Num_R) with (@nlit R Num_R 0 1). rewrite !nlit_R. replace (IZR 0 / IZR (Z.pos 1)) with 0 by (cbn; field).
    change (@nltb R Num_R) with Rltb. change (@nleb R Num_R) with Rleb. change (@nmul R Num_R) with Rmult.
    destruct (Rltb_spec (dot b b * dot w a - dot a b * dot w b) 0) as [X1|X1].
    { cbn [after]. apply (edge_good d l q s1 p); try assumption; try reflexivity; [now symmetry|].
      replace (minus q s1) with (scale (1 - m) (minus s0 s1)) by (unfold q, minus, plus, scale; apply vec_ext; cbn [vx vy vz]; ring). rewrite dot_scale_r.
      replace (dot (cross (minus p s1) (cross (minus p s1) s1)) (minus s0 s1)) with (dot b b * dot w a - dot a b * dot w b) by (unfold cross, dot, a, b, w, scale, minus; cbn [vx vy vz]; ring). nra. }
    destruct (Rltb_spec (dot a a * dot w b - dot a b * dot w a) 0) as [X2|X2].
    { cbn [after]. apply (edge_good d l q s0 p); try assumption; try reflexivity; [now symmetry|].
      replace (minus q s0) with (scale m (minus s1 s0)) by (unfold q, minus, plus, scale; apply vec_ext; cbn [vx vy vz]; ring). rewrite dot_scale_r.
      replace (dot (cross (minus p s0) (cross (minus p s0) s0)) (minus s1 s0)) with (dot a a * dot w b - dot a b * dot w a) by (unfold cross, dot, a, b, w, scale, minus; cbn [vx vy vz]; ring). nra. }
    assert (NZ : cross a b <> origin).
    { intros Z. apply N01. assert (DA : dot d a = - l * dot d d - dot d p) by (unfold a; rewrite dot_minus_r, D0; reflexivity). assert (DB : dot d b = - l * dot d d - dot d p) by (unfold b; rewrite dot_minus_r, D1; reflexivity).
      assert (Y : cross d (cross a b) = minus (scale (dot d b) a) (scale (dot d a) b)) by (unfold cross, dot, minus, scale; apply vec_ext; cbn [vx vy vz]; ring). rewrite Z, DA, DB in Y.
      assert (K : - l * dot d d - dot d p <> 0) by lra. assert (AB : a = b).
      { apply vec_ext; [apply (f_equal vx) in Y|apply (f_equal vy) in Y|apply (f_equal vz) in Y]; unfold cross, origin, minus, scale in Y; cbn [vx vy vz] in Y; (apply Rmult_eq_reg_l with (- l * dot d d - dot d p); [lra|exact K]). }
      unfold a, b, minus in AB. apply vec_ext; [apply (f_equal vx) in AB|apply (f_equal vy) in AB|apply (f_equal vz) in AB]; cbn [vx vy vz] in AB; lra. }
    assert (NQ : dot (cross a b) (minus q p) = 0) by (unfold q, cross, dot, a, b, scale, minus, plus; cbn [vx vy vz]; ring).
    assert (FG : forall k, k * k = 1 -> dot (scale k (cross a b)) p <= 0 ->
      (exists f, M f /\ dot f f * dot (cross a b) (cross a b) = dot (cross a b) p * dot (cross a b) p) /\ (k = 1 -> good (S3 s0 s1 p) (cross a b)) /\ (k = -1 -> good (S3 s1 s0 p) (scale (-1) (cross a b)))).
    { intros k KK KP. destruct (face_good d l q s0 s1 p (scale k (cross a b)) k) as (G1 & G2 & G3); try assumption; try reflexivity; [now symmetry|rewrite dot_scale_l, NQ; lra|].
      split; [|split].
      - destruct G1 as (f & MF & E). exists f. split; [exact MF|]. rewrite !dot_scale_l, dot_scale_r in E. replace (k * (k * dot (cross a b) (cross a b))) with (k * k * dot (cross a b) (cross a b)) in E by ring. replace (k * dot (cross a b) p * (k * dot (cross a b) p)) with (k * k * (dot (cross a b) p * dot (cross a b) p)) in E by ring. rewrite KK in E. lra.
      - intros ->. rewrite scale_1 in G2. apply G2. unfold cross, a, b, minus. apply vec_ext; cbn [vx vy vz]; ring.
      - intros ->. apply G3. unfold cross, a, b, minus, scale. apply vec_ext; cbn [vx vy vz]; ring. }
    pose proof (dot_pos_ne _ NZ) as NN. destruct (Rltb_spec (IZR 1 / IZR (Z.pos 1000000) * dot (cross a b) (cross a b)) (dot (cross a b) p * dot (cross a b) p)) as [X3|X3].
    - destruct (Rleb_spec (dot (cross a b) p) 0) as [X4|X4]; cbn [after].
      + apply (FG 1); [ring|rewrite dot_scale_l; lra|reflexivity].
      + replace (@vneg R Num_R (cross a b)) with (scale (-1) (cross a b)) by (unfold vneg, scale; apply vec_ext; cbn; ring). apply (FG (-1)); [ring|rewrite dot_scale_l; lra|reflexivity].
    - cbn [after]. destruct (Rle_or_lt (dot (cross a b) p) 0) as [X4|X4]; [destruct (FG 1) as ((f & MF & E) & _); [ring|rewrite dot_scale_l; lra|]|destruct (FG (-1)) as ((f & MF & E) & _); [ring|rewrite dot_scale_l; lra|]];
        exists f; (split; [exact MF|]); (apply norm_sq_le; [lra|]); rewrite <- E in X3; apply Rmult_le_reg_r in X3; try exact NN; cbn in X3 |- *; lra.
  Qed.
  Lemma inside4 d l s0 s1 s2 p : M s0 -> M s1 -> M s2 -> M p -> 0 < l * dot d d -> 0 <= dot d p -> dot d s0 = - l * dot d d -> dot d s1 = - l * dot d d -> dot d s2 = - l * dot d d ->
    dot (minus s0 p) (cross (minus s1 p) (minus s2 p)) < 0 -> 0 <= dot p (cross (minus s0 p) (minus s1 p)) -> 0 <= dot p (cross (minus s2 p) (minus s0 p)) -> 0 <= dot p (cross (minus s1 p) (minus s2 p)) -> M origin.
  Proof.
    intros M0 M1 M2 MP LD DP D0 D1 D2 VOL I1 I2 I3. remember (minus s0 p) as a eqn:Ea. remember (minus s1 p) as b eqn:Eb. remember (minus s2 p) as c eqn:Ec. remember (scale (-1) p) as w eqn:Ew.
    remember (dot p (cross a b)) as T013 eqn:H013. remember (dot p (cross c a)) as T023 eqn:H023. remember (dot p (cross b c)) as T123 eqn:H123.
    assert (TA : T013 = - dot w (cross a b)) by (rewrite H013, Ew, dot_scale_l; ring). assert (TB : T023 = - dot w (cross c a)) by (rewrite H023, Ew, dot_scale_l; ring). assert (TC : T123 = - dot w (cross b c)) by (rewrite H123, Ew, dot_scale_l; ring).
    remember (dot a (cross b c)) as g eqn:Eg. assert (G0 : g <> 0) by lra. assert (GI : 0 < - / g) by (rewrite Ropp_inv_permute by exact G0; apply Rinv_0_lt_compat; lra).
    remember (- / g * T123) as ua eqn:Eua. remember (- / g * T023) as ub eqn:Eub. remember (- / g * T013) as uc eqn:Euc.
    assert (UA : 0 <= ua) by (rewrite Eua; apply Rmult_le_pos; [now apply Rlt_le|assumption]). assert (UB : 0 <= ub) by (rewrite Eub; apply Rmult_le_pos; [now apply Rlt_le|assumption]). assert (UC : 0 <= uc) by (rewrite Euc; apply Rmult_le_pos; [now apply Rlt_le|assumption]).
    assert (EW : w = plus (scale ua a) (plus (scale ub b) (scale uc c))).
    { assert (X : scale g w = plus (scale (- T123) a) (plus (scale (- T023) b) (scale (- T013) c))) by (rewrite TA, TB, TC, !Ropp_involutive, Eg; clear; unfold cross, plus, scale, dot; apply vec_ext; cbn [vx vy vz]; ring).
      transitivity (scale (/ g) (scale g w)); [rewrite scale_scale, Rinv_l, scale_1 by exact G0; reflexivity|]. rewrite X, Eua, Eub, Euc. clear. unfold plus, scale. apply vec_ext; cbn [vx vy vz]; ring. }
    assert (LE : ua + ub + uc <= 1).
    { assert (X : dot d w = (ua + ub + uc) * (- l * dot d d - dot d p)) by (rewrite EW, !dot_plus_r, !dot_scale_r, Ea, Eb, Ec, !dot_minus_r, D0, D1, D2; ring). rewrite Ew, dot_scale_r in X. exact (le_one _ _ _ _ LD DP X). }
    clear Eua Eub Euc. replace origin with (plus (scale ua s0) (plus (scale ub s1) (plus (scale uc s2) (scale (1 - ua - ub - uc) p)))); [apply mid4; try assumption; [clear - LE; lra|ring]|].
    rewrite Ew, Ea, Eb, Ec in EW. clear - EW. apply vec_ext; [apply (f_equal vx) in EW|apply (f_equal vy) in EW|apply (f_equal vz) in EW]; unfold plus, scale, minus, origin in *; cbn [vx vy vz] in *; lra.
  Qed.
  Lemma update4 s0 s1 s2 d p : good (S3 s0 s1 s2) d -> M p -> 0 <= dot d p -> after (1 / 1000) (UpdateSimplex4 s0 s1 s2 p).
  Proof.
    intros ((D & ED & l & u & v & t & L & U & V & W & SUM & F) & IM) MP DP. assert (M0 : M s0) by (apply IM; cbn; auto). assert (M1 : M s1) by (apply IM; cbn; auto). assert (M2 : M s2) by (apply IM; cbn; auto).
    set (q := plus (scale u s0) (plus (scale v s1) (scale t s2))) in *. assert (DQ : dot d q = - l * dot d d) by (rewrite <- F; apply dot_scale_r).
    pose proof (dot_pos_ne d D) as DD. assert (LD : 0 < l * dot d d) by nra.
    assert (E1 : dot d s1 = dot d s0) by (apply Rminus_diag_uniq; rewrite <- dot_minus_r, ED, dot_comm; apply cross_dot_l). assert (E2 : dot d s2 = dot d s0) by (apply Rminus_diag_uniq; rewrite <- dot_minus_r, ED, dot_comm; apply cross_dot_r).
    assert (D0 : dot d s0 = - l * dot d d) by (rewrite <- DQ; unfold q; rewrite !dot_plus_r, !dot_scale_r, E1, E2; transitivity ((u + v + t) * dot d s0); [rewrite SUM|]; ring).
    rewrite D0 in E1, E2. rename E1 into D1. rename E2 into D2.
    unfold UpdateSimplex4. cbv zeta. replace (@Cross R Num_R) with cross by reflexivity. replace (@Dot R Num_R) with dot by reflexivity. replace (@vsub R Num_R) with minus by reflexivity. rewrite !edge_dir_p.
    set (a := minus s0 p). set (b := minus s1 p). set (c := minus s2 p). set (w := scale (-1) p).
    assert (N013 : cross (minus s1 s0) (minus p s0) = cross a b) by (unfold cross, a, b, minus; apply vec_ext; cbn [vx vy vz]; ring). rewrite N013.
    assert (N023 : cross (minus p s0) (minus s2 s0) = cross c a) by (unfold cross, a, c, minus; apply vec_ext; cbn [vx vy vz]; ring). rewrite N023.
    assert (N123 : cross (minus s2 s1) (minus p s1) = cross b c) by (unfold cross, b, c, minus; apply vec_ext; cbn [vx vy vz]; ring). rewrite N123.
    set (P1 := dot a a * dot w b - dot a b * dot w a). set (P2 := dot a a * dot w c - dot a c * dot w a). set (R1 := dot b b * dot w a - dot b a * dot w b). set (R2 := dot b b * dot w c - dot b c * dot w b). set (Q0 := dot c c * dot w a - dot c a * dot w c). set (Q1 := dot c c * dot w b - dot c b * dot w c).
    replace (dot (cross (cross a b) (minus p s0)) p) with P1 by (unfold P1, cross, dot, a, b, w, scale, minus; cbn [vx vy vz]; ring).
    replace (dot (cross (minus p s0) (cross c a)) p) with P2 by (unfold P2, cross, dot, a, c, w, scale, minus; cbn [vx vy vz]; ring).
    replace (dot (cross (minus p s1) (cross a b)) p) with R1 by (unfold R1, cross, dot, a, b, w, scale, minus; cbn [vx vy vz]; ring).
    replace (dot (cross (cross b c) (minus p s1)) p) with R2 by (unfold R2, cross, dot, b, c, w, scale, minus; cbn [vx vy vz]; ring).
    replace (dot (cross (cross c a) (minus p s2)) p) with Q0 by (unfold Q0, cross, dot, a, c, w, scale, minus; cbn [vx vy vz]; ring).
    replace (dot (cross (minus p s2) (cross b c)) p) with Q1 by (unfold Q1, cross, dot, b, c, w, scale, minus; cbn [vx vy vz]; ring).
    set (T013 := dot p (cross a b)). set (T023 := dot p (cross c a)). set (T123 := dot p (cross b c)).
    replace (@n0 R Num_R) with (@nlit R Num_R 0 1) by reflexivity. rewrite !nlit_R. replace (IZR 0 / IZR (Z.pos 1)) with 0 by (cbn; field).
    replace (@nltb R Num_R) with Rltb by reflexivity. replace (@nleb R Num_R) with Rleb by reflexivity.
    assert (VOL : dot a (cross b c) < 0) by (replace (dot a (cross b c)) with (dot d s0 - dot d p) by (rewrite ED; unfold cross, dot, a, b, c, minus; cbn [vx vy vz]; ring); rewrite D0; lra).
    assert (EDGE : forall s e si sj ui uj, dot d s = - l * dot d d -> M s -> e = cross (minus p s) (cross (minus p s) s) -> 0 <= ui -> 0 <= uj -> minus q s = plus (scale ui (minus si s)) (scale uj (minus sj s)) -> dot e (minus si s) <= 0 -> dot e (minus sj s) <= 0 -> good (S2 s p) e).
    { intros s e si sj ui uj DS MS E UI UJ Q I J. apply (edge_good d l q s p e); try assumption; [now symmetry|]. rewrite Q, dot_plus_r, !dot_scale_r. nra. }
    assert (SB : forall X Y, Rleb X 0 && Rleb Y 0 = true -> X <= 0 /\ Y <= 0) by (intros X Y H; apply andb_prop in H as (H1 & H2); split; now apply Rleb_true).
    assert (NB : forall X Y, Rleb X 0 && Rleb Y 0 = false -> ~ (X <= 0 /\ Y <= 0)) by (intros X Y H (H1 & H2); apply Rleb_true in H1; apply Rleb_true in H2; rewrite H1, H2 in H; discriminate).
    assert (SF : forall X Y Z, Rltb X 0 && Rleb 0 Y && Rleb 0 Z = true -> X < 0 /\ 0 <= Y /\ 0 <= Z) by (intros X Y Z H; apply andb_prop in H as (H1 & H3); apply andb_prop in H1 as (H1 & H2); split; [now apply Rltb_true|split; now apply Rleb_true]).
    assert (NF : forall X Y Z, Rltb X 0 && Rleb 0 Y && Rleb 0 Z = false -> ~ (X < 0 /\ 0 <= Y /\ 0 <= Z)) by (intros X Y Z H (H1 & H2 & H3); apply Rltb_true in H1; apply Rleb_true in H2; apply Rleb_true in H3; rewrite H1, H2, H3 in H; discriminate).
    destruct (Rleb P1 0 && Rleb P2 0) eqn:B1.
    { apply SB in B1 as (p1 & p2). apply (EDGE s0 _ s1 s2 v t); try assumption; try reflexivity.
      - unfold q, minus, plus, scale. replace u with (1 - v - t) by lra. apply vec_ext; cbn [vx vy vz]; ring.
      - replace (dot _ _) with P1; [exact p1|]. unfold P1, cross, dot, a, b, w, scale, minus; cbn [vx vy vz]; ring.
      - replace (dot _ _) with P2; [exact p2|]. unfold P2, cross, dot, a, c, w, scale, minus; cbn [vx vy vz]; ring. }
    apply NB in B1. destruct (Rleb R1 0 && Rleb R2 0) eqn:B2.
    { apply SB in B2 as (p1 & p2). apply (EDGE s1 _ s0 s2 u t); try assumption; try reflexivity.
      - unfold q, minus, plus, scale. replace v with (1 - u - t) by lra. apply vec_ext; cbn [vx vy vz]; ring.
      - replace (dot _ _) with R1; [exact p1|]. unfold R1, cross, dot, a, b, w, scale, minus; cbn [vx vy vz]; ring.
      - replace (dot _ _) with R2; [exact p2|]. unfold R2, cross, dot, b, c, w, scale, minus; cbn [vx vy vz]; ring. }
    apply NB in B2. destruct (Rleb Q0 0 && Rleb Q1 0) eqn:B3.
    { apply SB in B3 as (p1 & p2). apply (EDGE s2 _ s0 s1 u v); try assumption; try reflexivity.
      - unfold q, minus, plus, scale. replace t with (1 - u - v) by lra. apply vec_ext; cbn [vx vy vz]; ring.
      - replace (dot _ _) with Q0; [exact p1|]. unfold Q0, cross, dot, a, c, w, scale, minus; cbn [vx vy vz]; ring.
      - replace (dot _ _) with Q1; [exact p2|]. unfold Q1, cross, dot, b, c, w, scale, minus; cbn [vx vy vz]; ring. }
    apply NB in B3.
    assert (QP : minus q p = plus (scale u a) (plus (scale v b) (scale t c))) by (unfold q, a, b, c, minus, plus, scale; replace u with (1 - v - t) by lra; apply vec_ext; cbn [vx vy vz]; ring).
    assert (VBA : dot b (cross c a) = dot a (cross b c)) by (unfold cross, dot; cbn [vx vy vz]; ring). assert (VCA : dot c (cross a b) = dot a (cross b c)) by (unfold cross, dot; cbn [vx vy vz]; ring).
    assert (NZ : forall x y z : pt, dot x (cross y z) < 0 -> cross y z <> origin) by (intros x y z H Z; rewrite Z in H; unfold dot, origin in H; cbn in H; lra).
    destruct (Rltb T013 0 && Rleb 0 R1 && Rleb 0 P1) eqn:B4.
    { apply SF in B4 as (i & r1 & p1). destruct (face_good d l q s0 s1 p (cross a b) 1) as (_ & G & _); fold a b w; try assumption.
      - now symmetry. - now rewrite scale_1. - ring. - apply (NZ c); now rewrite VCA. - rewrite dot_comm; apply Rlt_le; exact i.
      - rewrite QP, !dot_plus_r, !dot_scale_r, (dot_comm _ a), cross_dot_l, (dot_comm _ b), cross_dot_r, (dot_comm _ c), VCA. nra.
      - rewrite (dot_comm a b). exact r1.
      - apply G. symmetry. exact N013. }
    apply NF in B4. destruct (Rltb T023 0 && Rleb 0 Q0 && Rleb 0 P2) eqn:B5.
    { apply SF in B5 as (i & r1 & p1). destruct (face_good d l q s2 s0 p (cross c a) 1) as (_ & G & _); fold a c w; try assumption.
      - now symmetry. - now rewrite scale_1. - ring. - apply (NZ b); now rewrite VBA. - rewrite dot_comm; apply Rlt_le; exact i.
      - rewrite QP, !dot_plus_r, !dot_scale_r, (dot_comm _ c), cross_dot_l, (dot_comm _ a), cross_dot_r, (dot_comm _ b), VBA. nra.
      - rewrite (dot_comm c a). exact p1.
      - apply G. unfold cross, a, c, minus; apply vec_ext; cbn [vx vy vz]; ring. }
    apply NF in B5. destruct (Rltb T123 0 && Rleb 0 R2 && Rleb 0 Q1) eqn:B6.
    { apply SF in B6 as (i & r1 & p1). destruct (face_good d l q s1 s2 p (cross b c) 1) as (_ & G & _); fold b c w; try assumption.
      - now symmetry. - now rewrite scale_1. - ring. - now apply (NZ a). - rewrite dot_comm; apply Rlt_le; exact i.
      - rewrite QP, !dot_plus_r, !dot_scale_r, (dot_comm _ b), cross_dot_l, (dot_comm _ c), cross_dot_r, (dot_comm _ a). nra.
      - rewrite (dot_comm b c). exact p1.
      - apply G. symmetry. exact N123. }
    apply NF in B6. clear EDGE SB NB SF NF.
    (* no test succeeded: the origin is inside the tetrahedron *)
    exfalso. apply NM.
    assert (A0 : a <> origin) by (intros Z; rewrite Z in VOL; unfold dot, origin in VOL; cbn in VOL; lra).
    assert (B0 : b <> origin) by (intros Z; rewrite <- VBA, Z in VOL; unfold dot, origin in VOL; cbn in VOL; lra).
    assert (C0 : c <> origin) by (intros Z; rewrite <- VCA, Z in VOL; unfold dot, origin in VOL; cbn in VOL; lra).
    assert (POS : 0 < dot w a \/ 0 < dot w b \/ 0 < dot w c).
    { destruct (Rlt_or_le 0 (dot w a)) as [X|X]; [now left|]. destruct (Rlt_or_le 0 (dot w b)) as [Y|Y]; [now right; left|]. destruct (Rlt_or_le 0 (dot w c)) as [Z|Z]; [now right; right|]. exfalso.
      assert (K : dot w (minus q p) <= 0) by (rewrite QP, !dot_plus_r, !dot_scale_r; nra). rewrite dot_minus_r in K. unfold w in K. rewrite !dot_scale_l in K. rewrite <- F in K. rewrite dot_scale_r, (dot_comm p d) in K. pose proof (dot_pos p) as PP.
      assert (P0 : dot p p = 0) by nra. apply dot_zero in P0. apply NM. now rewrite <- P0. }
    assert (TA : T013 = - dot w (cross a b)) by (unfold T013, w; rewrite dot_scale_l; ring). assert (TB : T023 = - dot w (cross c a)) by (unfold T023, w; rewrite dot_scale_l; ring). assert (TC : T123 = - dot w (cross b c)) by (unfold T123, w; rewrite dot_scale_l; ring).
    assert (ANTI : forall x y : pt, dot w (cross x y) = - dot w (cross y x)) by (intros x y; unfold cross, dot; cbn [vx vy vz]; ring).
    assert (VM : forall x y z : pt, dot x (cross y z) = - dot x (cross z y)) by (intros x y z; unfold cross, dot; cbn [vx vy vz]; ring).
    assert (t1 : T013 < 0 -> P1 < 0 -> 0 < P2 -> T023 < 0) by (intros X Y Z; rewrite TB, ANTI, Ropp_involutive; apply (turn_neg a b c w); [exact VOL|lra|exact Y|exact Z]).
    assert (t2 : T023 < 0 -> P2 < 0 -> 0 < P1 -> T013 < 0) by (intros X Y Z; rewrite TA; apply Ropp_lt_gt_0_contravar; apply (turn_pos a c b w); [rewrite VM; lra|rewrite ANTI; lra|exact Y|exact Z]).
    assert (t3 : T123 < 0 -> R2 < 0 -> 0 < R1 -> T013 < 0) by (intros X Y Z; rewrite TA, ANTI, Ropp_involutive; apply (turn_neg b c a w); [lra|lra|exact Y|exact Z]).
    assert (t4 : T013 < 0 -> R1 < 0 -> 0 < R2 -> T123 < 0) by (intros X Y Z; rewrite TC; apply Ropp_lt_gt_0_contravar; apply (turn_pos b a c w); [rewrite VM; lra|rewrite ANTI; lra|exact Y|exact Z]).
    assert (t5 : T023 < 0 -> Q0 < 0 -> 0 < Q1 -> T123 < 0) by (intros X Y Z; rewrite TC, ANTI, Ropp_involutive; apply (turn_neg c a b w); [lra|lra|exact Y|exact Z]).
    assert (t6 : T123 < 0 -> Q1 < 0 -> 0 < Q0 -> T023 < 0) by (intros X Y Z; rewrite TB; apply Ropp_lt_gt_0_contravar; apply (turn_pos c b a w); [rewrite VM; lra|rewrite ANTI; lra|exact Y|exact Z]).
    pose proof (dot_pos_ne a A0) as AA. pose proof (dot_pos_ne b B0) as BB. pose proof (dot_pos_ne c C0) as CC.
    assert (CY1 : P1 < 0 -> 0 < P2 -> Q0 < 0 -> 0 < Q1 -> R2 < 0 -> 0 < R1 -> False).
    { intros X1 X2 X3 X4 X5 X6. apply (no_cycle (dot a a) (dot b b) (dot c c) (dot a b) (dot b c) (dot c a) (dot w a) (dot w b) (dot w c)); try assumption; try apply cauchy_sq; [rewrite (dot_comm c a); exact X2|rewrite (dot_comm b c); exact X4|rewrite (dot_comm a b); exact X6]. }
    assert (CY2 : P2 < 0 -> 0 < P1 -> Q1 < 0 -> 0 < Q0 -> R1 < 0 -> 0 < R2 -> False).
    { intros X1 X2 X3 X4 X5 X6. apply (no_cycle (dot a a) (dot c c) (dot b b) (dot a c) (dot c b) (dot b a) (dot w a) (dot w c) (dot w b)); try assumption; try apply cauchy_sq; [tauto|rewrite (dot_comm b a); exact X2|rewrite (dot_comm c b); exact X6|rewrite (dot_comm a c); exact X4]. }
    destruct (no_face P1 P2 R1 R2 Q0 Q1 T013 T023 T123 B1 B2 B3 B4 B5 B6 t1 t2 t3 t4 t5 t6 CY1 CY2) as (I1 & I2 & I3).
    exact (inside4 d l s0 s1 s2 p M0 M1 M2 MP LD DP D0 D1 D2 VOL I1 I2 I3).
  Qed.
End Step.
