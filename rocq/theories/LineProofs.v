(** Closest points between lines, rays and segments: minimisation of a convex quadratic over a box of parameters. *)
From Coq Require Import Reals Lra Psatz Bool.
From Verif Require Import Num NumR ScalarModel ScalarProofs Vec3Model GeoTypes GeoSpec GeoLemmas AabbSpec LineModel LineSpec.
Open Scope R_scope.

Definition sqd (a b : pt) : R := dot (minus a b) (minus a b).
Lemma sqd_sym a b : sqd a b = sqd b a.
Proof. unfold sqd. gunf. ring. Qed.
Lemma sqd_pos a b : 0 <= sqd a b.
Proof. apply dot_pos. Qed.
Lemma sqd_dist a b : sqd a b = dist a b * dist a b.
Proof. unfold sqd, dist. now rewrite norm_sq. Qed.
Lemma dist_sqrt a b : dist a b = sqrt (sqd a b).
Proof. reflexivity. Qed.
Lemma dist_le a b c d : sqd a b <= sqd c d -> dist a b <= dist c d.
Proof. intros H. rewrite !dist_sqrt. apply sqrt_le_1_alt, H. Qed.
Lemma DistanceSq_R (a b : pt) : DistanceSq a b = sqd a b.
Proof. unfold DistanceSq, sqd. gunf. rsimpl. ring. Qed.
Lemma Distance_R (a b : pt) : Distance a b = dist a b.
Proof. unfold Distance. rewrite DistanceSq_R. reflexivity. Qed.

Section Pair.
  Variables p u q v : pt.
  Implicit Types I J : R -> Prop.
  Definition FF (s t : R) : R := sqd (along p u s) (along q v t).
  Definition stationary (d d2 : R) : Prop :=
    dot (minus (along p u d) (along q v d2)) u = 0 /\ dot (minus (along p u d) (along q v d2)) v = 0.
  Definition gap (s t d d2 : R) : R := dot (minus (scale (s - d) u) (scale (t - d2) v)) (minus (scale (s - d) u) (scale (t - d2) v)).
  Lemma FF_exp d d2 s t : stationary d d2 -> FF s t = FF d d2 + gap s t d d2.
  Proof.
    intros [S1 S2]. unfold FF, sqd, gap. set (w := minus (along p u d) (along q v d2)) in *.
    replace (minus (along p u s) (along q v t)) with (plus w (minus (scale (s - d) u) (scale (t - d2) v)))
      by (subst w; unfold along; gunf; apply vec_ext; cbn [vx vy vz]; ring).
    transitivity (dot w w + 2 * ((s - d) * dot w u - (t - d2) * dot w v) + dot (minus (scale (s - d) u) (scale (t - d2) v)) (minus (scale (s - d) u) (scale (t - d2) v))).
    - clear. gunf. ring.
    - rewrite S1, S2. ring.
  Qed.
  Lemma FF_min d d2 s t : stationary d d2 -> FF d d2 <= FF s t.
  Proof. intros S. rewrite (FF_exp d d2 s t S). assert (H := dot_pos (minus (scale (s - d) u) (scale (t - d2) v))). unfold gap. lra. Qed.
  Lemma FF_shrink d d2 s t k : stationary d d2 -> 0 <= k <= 1 -> FF (s + k * (d - s)) (t + k * (d2 - t)) <= FF s t.
  Proof.
    intros S K. rewrite (FF_exp d d2 s t S), (FF_exp d d2 _ _ S).
    assert (E : gap (s + k * (d - s)) (t + k * (d2 - t)) d d2 = (1 - k) * (1 - k) * gap s t d d2) by (unfold gap; clear; gunf; ring).
    rewrite E. assert (G : 0 <= gap s t d d2) by apply dot_pos. assert (0 <= (1 - k) * (1 - k) <= 1) by nra. nra.
  Qed.

  (** Parameter sets are intervals. *)
  Definition cvx (I : R -> Prop) : Prop := forall a b x, I a -> I b -> a <= x <= b -> I x.
  Lemma cvx_mid I a b k : cvx I -> I a -> I b -> 0 <= k <= 1 -> I (a + k * (b - a)).
  Proof.
    intros C A B K. destruct (Rle_or_lt a b).
    - apply (C a b); auto. nra.
    - apply (C b a); auto. nra.
  Qed.
  Definition opt (I J : R -> Prop) (s t : R) : Prop := I s /\ J t /\ forall s' t', I s' -> J t' -> FF s t <= FF s' t'.
  (** The end of the interval on the side of d. *)
  Definition blocks (I : R -> Prop) (d c : R) : Prop := I c /\ forall s, I s -> exists k, 0 <= k <= 1 /\ s + k * (d - s) = c.
  Lemma opt_in I J d d2 : stationary d d2 -> I d -> J d2 -> opt I J d d2.
  Proof. intros S A B. split; [exact A|split; [exact B|]]. intros s t _ _. now apply FF_min. Qed.
  Lemma opt_edge2 I J d d2 c s0 : stationary d d2 -> cvx I -> I d -> blocks J d2 c -> I s0 -> (forall s, I s -> FF s0 c <= FF s c) -> opt I J s0 c.
  Proof.
    intros S C A [B1 B2] I0 N. split; [exact I0|split; [exact B1|]]. intros s t Is Jt. destruct (B2 t Jt) as (k & K & E).
    eapply Rle_trans; [apply (N (s + k * (d - s))); now apply cvx_mid|]. rewrite <- E. now apply FF_shrink.
  Qed.
  Lemma opt_edge1 I J d d2 c t0 : stationary d d2 -> cvx J -> J d2 -> blocks I d c -> J t0 -> (forall t, J t -> FF c t0 <= FF c t) -> opt I J c t0.
  Proof.
    intros S C A [B1 B2] I0 N. split; [exact B1|split; [exact I0|]]. intros s t Is Jt. destruct (B2 s Is) as (k & K & E).
    eapply Rle_trans; [apply (N (t + k * (d2 - t))); now apply cvx_mid|]. rewrite <- E. now apply FF_shrink.
  Qed.
  Lemma corner_bound I J d d2 c1 c2 s0 t0 s t : stationary d d2 -> cvx I -> cvx J -> blocks I d c1 -> blocks J d2 c2 ->
    (forall s, I s -> FF s0 c2 <= FF s c2) -> (forall t, J t -> FF c1 t0 <= FF c1 t) -> I s -> J t -> FF s0 c2 <= FF s t \/ FF c1 t0 <= FF s t.
  Proof.
    intros S C1 C2 [A1 A2] [B1 B2] N1 N2 Is Jt. destruct (A2 s Is) as (k1 & K1 & E1), (B2 t Jt) as (k2 & K2 & E2).
    assert (Part : forall (K : R -> Prop) a d c k j, cvx K -> K a -> K c -> a + k * (d - a) = c -> 0 <= j <= k -> K (a + j * (d - a))).
    { intros K a d' c k j CK Ka Kc E Jk. destruct (Rle_or_lt 0 (d' - a)).
      - apply (CK a c); auto. nra.
      - apply (CK c a); auto. nra. }
    destruct (Rle_or_lt k1 k2).
    - right. eapply Rle_trans; [apply (N2 (t + k1 * (d2 - t)))|].
      + apply (Part J t d2 c2 k2 k1); auto. lra.
      + rewrite <- E1. now apply FF_shrink.
    - left. eapply Rle_trans; [apply (N1 (s + k2 * (d - s)))|].
      + apply (Part I s d c1 k1 k2); auto. lra.
      + rewrite <- E2. now apply FF_shrink.
  Qed.
  Lemma opt_corner1 I J d d2 c1 c2 s0 t0 : stationary d d2 -> cvx I -> cvx J -> blocks I d c1 -> blocks J d2 c2 -> I s0 -> J t0 ->
    (forall s, I s -> FF s0 c2 <= FF s c2) -> (forall t, J t -> FF c1 t0 <= FF c1 t) -> FF s0 c2 <= FF c1 t0 -> opt I J s0 c2.
  Proof.
    intros S C1 C2 A B I0 J0 N1 N2 L. split; [exact I0|split; [apply B|]]. intros s t Is Jt.
    destruct (corner_bound I J d d2 c1 c2 s0 t0 s t S C1 C2 A B N1 N2 Is Jt); lra.
  Qed.
  Lemma opt_corner2 I J d d2 c1 c2 s0 t0 : stationary d d2 -> cvx I -> cvx J -> blocks I d c1 -> blocks J d2 c2 -> I s0 -> J t0 ->
    (forall s, I s -> FF s0 c2 <= FF s c2) -> (forall t, J t -> FF c1 t0 <= FF c1 t) -> FF c1 t0 <= FF s0 c2 -> opt I J c1 t0.
  Proof.
    intros S C1 C2 A B I0 J0 N1 N2 L. split; [apply A|split; [exact J0|]]. intros s t Is Jt.
    destruct (corner_bound I J d d2 c1 c2 s0 t0 s t S C1 C2 A B N1 N2 Is Jt); lra.
  Qed.
End Pair.

(** The three parameter sets. *)
Definition Iall (_ : R) : Prop := True.
Definition Ipos (s : R) : Prop := 0 <= s.
Definition Iunit (s : R) : Prop := 0 <= s <= 1.
Lemma cvx_all : cvx Iall. Proof. now intros a b x _ _ _. Qed.
Lemma cvx_pos : cvx Ipos. Proof. unfold cvx, Ipos. intros; lra. Qed.
Lemma cvx_unit : cvx Iunit. Proof. unfold cvx, Iunit. intros; lra. Qed.
Lemma block_low (I : R -> Prop) d : I 0 -> (forall s, I s -> 0 <= s) -> d < 0 -> blocks I d 0.
Proof.
  intros I0 L D. split; [exact I0|]. intros s Is. specialize (L s Is). exists (s / (s - d)).
  assert (Y : s / (s - d) * (s - d) = s) by (field; lra). split; [|lra]. split; [apply Rmult_le_pos; [lra|apply Rlt_le, Rinv_0_lt_compat; lra]|]. apply Rmult_le_reg_r with (s - d); lra.
Qed.
Lemma block_high d : 1 < d -> blocks Iunit d 1.
Proof.
  intros D. split; [unfold Iunit; lra|]. unfold Iunit. intros s Is. exists ((1 - s) / (d - s)).
  assert (Y : (1 - s) / (d - s) * (d - s) = 1 - s) by (field; lra). split; [|lra]. split; [apply Rmult_le_pos; [lra|apply Rlt_le, Rinv_0_lt_compat; lra]|]. apply Rmult_le_reg_r with (d - s); lra.
Qed.
Lemma block_pos d : d < 0 -> blocks Ipos d 0.
Proof. intros. apply block_low; unfold Ipos; auto; lra. Qed.
Lemma block_unit d : d < 0 -> blocks Iunit d 0.
Proof. intros. apply block_low; unfold Iunit; intros; lra. Qed.

(** *** The line/line solution is stationary *)
Lemma parallel_dot (u v w : pt) : dot v v <> 0 -> dot u u * dot v v - dot v u * dot v u = 0 -> dot w v = 0 -> dot w u = 0.
Proof.
  intros V D W. set (k := dot v u / dot v v). assert (Z : dot (minus u (scale k v)) (minus u (scale k v)) = 0).
  { transitivity (dot u u - 2 * k * dot v u + k * k * dot v v); [unfold k; clear; gunf; ring|]. unfold k. apply Rmult_eq_reg_r with (dot v v); [|exact V].
    transitivity (dot u u * dot v v - dot v u * dot v u); [field; exact V|lra]. }
  apply dot_zero in Z. assert (E : dot w u = dot w (minus u (scale k v)) + k * dot w v) by (clear; gunf; ring).
  rewrite E, W, Z. unfold origin. gunf. ring.
Qed.
Lemma LL_stationary p u q v : dot v v <> 0 -> stationary p u q v (fst (ClosestPointLineLine p u q v)) (snd (ClosestPointLineLine p u q v)).
Proof.
  intros V. unfold ClosestPointLineLine. change (@Dot R Num_R) with dot. change (vsub p q) with (minus p q). set (w := minus p q).
  rsimpl. cbn [fst snd]. unfold stationary.
  assert (EX : forall s t x, dot (minus (along p u s) (along q v t)) x = dot w x + s * dot u x - t * dot v x) by (intros; unfold w, along; clear; gunf; ring).
  set (D := dot u u * dot v v - dot v u * dot v u). destruct (Reqb_spec D 0) as [E|E]; cbn [negb].
  - assert (W : dot (minus (along p u 0) (along q v ((dot w v + 0 * dot v u) / dot v v))) v = 0) by (rewrite EX; field; exact V).
    split; [|exact W]. apply (parallel_dot u v); [exact V|exact E|exact W].
  - set (d := (dot w v * dot v u - dot w u * dot v v) / D). assert (Dd : d * D = dot w v * dot v u - dot w u * dot v v) by (unfold d; field; exact E).
    split; rewrite EX.
    + apply Rmult_eq_reg_r with (dot v v); [|exact V]. rewrite Rmult_0_l. replace (dot u v) with (dot v u) in * by apply dot_comm.
      transitivity (dot w u * dot v v + d * (dot u u * dot v v) - (dot w v + d * dot v u) * dot v u); [field; exact V|]. unfold D in Dd. nra.
    + rewrite (dot_comm u v). field. exact V.
Qed.

(** *** Nearest points to a point *)
Lemma line_near (p u x : pt) s : dot u u = 1 -> sqd (along p u (dot (minus x p) u)) x <= sqd (along p u s) x.
Proof.
  intros U. set (d := dot (minus x p) u).
  assert (E : sqd (along p u s) x = sqd (along p u d) x + (s - d) * (s - d)); [|assert (0 <= (s - d) * (s - d)) by apply Rle_0_sqr; lra].
  assert (EX : forall t, sqd (along p u t) x = dot (minus x p) (minus x p) - 2 * t * d + t * t * dot u u) by (intros; unfold sqd, along, d; clear; gunf; ring).
  rewrite !EX, U. ring.
Qed.
Lemma along_sqd (p u x : pt) t : sqd (along p u t) x = dot (minus x p) (minus x p) - 2 * t * dot (minus x p) u + t * t * dot u u.
Proof. unfold sqd, along. gunf. ring. Qed.
Lemma ray_near (p u x : pt) s : dot u u = 1 -> 0 <= s -> sqd (along p u (Rmax 0 (dot (minus x p) u))) x <= sqd (along p u s) x.
Proof.
  intros U S. rewrite !along_sqd, U. set (d := dot (minus x p) u). unfold Rmax. destruct (Rle_dec 0 d).
  - assert (0 <= (s - d) * (s - d)) by apply Rle_0_sqr. lra.
  - nra.
Qed.
Definition clamp01 (x : R) : R := if Rlt_dec x 0 then 0 else if Rlt_dec 1 x then 1 else x.
Lemma clamp01_in x : 0 <= clamp01 x <= 1.
Proof. unfold clamp01. destruct (Rlt_dec x 0), (Rlt_dec 1 x); lra. Qed.
Lemma Clamp01_R x : Clamp01 x = clamp01 x.
Proof. unfold Clamp01, Clamp, clamp01. rsimpl. destruct (Rlt_dec x 0), (Rlt_dec 1 x); repeat (rcase; try lra). Qed.
Lemma seg_near (p u x : pt) s : dot u u <> 0 -> 0 <= s <= 1 -> sqd (along p u (clamp01 (dot (minus x p) u / dot u u))) x <= sqd (along p u s) x.
Proof.
  intros U S. rewrite !along_sqd. set (g := dot (minus x p) u). set (n := dot u u) in *. assert (N : 0 < n) by (assert (H := dot_pos u); unfold n in *; lra).
  set (d := g / n). replace g with (d * n) by (unfold d; field; lra). unfold clamp01.
  assert (Q : forall a b, (a - b) * (a + b - 2 * d) * n <= 0 -> - 2 * a * (d * n) + a * a * n <= - 2 * b * (d * n) + b * b * n) by (intros; nra).
  assert (Q2 : forall a, (a - s) * (a + s - 2 * d) <= 0 -> (a - s) * (a + s - 2 * d) * n <= 0) by (intros; nra).
  match goal with |- context [if Rlt_dec d 0 then _ else _] => idtac end.
  destruct (Rlt_dec d 0); [|destruct (Rlt_dec 1 d)].
  - assert (H := Q 0 s (Q2 0 ltac:(nra))). lra.
  - assert (H := Q 1 s (Q2 1 ltac:(nra))). lra.
  - assert (Sq := Rle_0_sqr (d - s)). unfold Rsqr in Sq. assert (H := Q d s (Q2 d ltac:(lra))). lra.
Qed.
