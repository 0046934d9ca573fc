(** Lemmas on the plane GJK search and Helly's theorem in the plane. *)
From Coq Require Import Reals Psatz List Bool Classical.
From Verif Require Import Num NumR ScalarModel ScalarProofs Vec2Model Vec2Spec Vec2Props HullModel HullSpec HullProofs HullProps2 GjkModel PlaneTestModel PlaneTestSpec.
Import ListNotations.
Open Scope R_scope.
Ltac Zify.zify_post_hook ::= idtac.

Ltac punf := unfold turn, area2, mi, pl, sc, dt, o2 in *; cbn [x2 y2] in *.
Lemma dt_pos v : 0 <= dt v v. Proof. punf. nra. Qed.
Lemma dt_zero v : dt v v = 0 -> v = o2. Proof. intros H. punf. apply v2_ext; cbn; nra. Qed.
Lemma dt_comm a b : dt a b = dt b a. Proof. punf. ring. Qed.
Lemma dt_ne v : v <> o2 -> 0 < dt v v. Proof. intros N. destruct (dt_pos v) as [H|H]; [exact H|]. symmetry in H. now apply dt_zero in H. Qed.
Lemma mi_zero a b : mi a b = o2 -> a = b.
Proof. intros E. apply v2_ext; [apply (f_equal x2) in E|apply (f_equal y2) in E]; punf; lra. Qed.
Definition perp (v : p2) : p2 := V2 (- y2 v) (x2 v).
Lemma dt_perp v w : dt v (perp w) = area2 w v. Proof. unfold perp. punf. ring. Qed.
Lemma dt_neg v w : dt v (neg w) = - dt v w. Proof. unfold neg. punf. ring. Qed.
Lemma dt_mi_r v a b : dt v (mi a b) = dt v a - dt v b. Proof. punf. ring. Qed.
Lemma dt_mi_l v a b : dt (mi a b) v = dt a v - dt b v. Proof. punf. ring. Qed.

Lemma edge_orth (b : bool) a p : dt (if b then neg (perp (mi p a)) else perp (mi p a)) a = dt (if b then neg (perp (mi p a)) else perp (mi p a)) p.
Proof. destruct b; unfold neg, perp; punf; ring. Qed.

Definition inv2 (S : simplex2 R) (d : p2) : Prop :=
  match S with
  | P1 s0 => d = neg s0 /\ d <> o2
  | P2 s0 s1 => s0 <> s1 /\ dt d s0 = dt d s1 /\ dt d s0 < 0
  end.
Definition points2 (S : simplex2 R) : list p2 := match S with P1 a => [a] | P2 a b => [a; b] end.

Section Step2.
  Context (M : p2 -> Prop) (MC : convex2 M) (NM : ~ M o2).
  Definition good2 (S : simplex2 R) (d : p2) : Prop := inv2 S d /\ forall p, In p (points2 S) -> M p.

  Lemma update2_2 s0 d p : good2 (P1 s0) d -> M p -> 0 <= dt d p ->
    match UpdateSimplex2D_2 s0 p with Some (S', d') => good2 S' d' | None => dt s0 s0 <= 1 / 10000000 end.
  Proof.
    intros ((E & D) & IM) MP DP. assert (MS : M s0) by (apply IM; now left). unfold UpdateSimplex2D_2. cbv zeta. set (e := @sub2 R Num_R p s0). change (@sub2 R Num_R p s0) with (mi p s0) in e. change (@Perp2 R Num_R e) with (perp e).
    change (@LengthSq2 R Num_R (perp e)) with (dt (perp e) (perp e)). change (@Dot2 R Num_R (perp e) s0) with (dt (perp e) s0). change (@nltb R Num_R) with Rltb. rewrite nlit_R.
    assert (PE : dt (perp e) (perp e) = dt e e) by (unfold perp; punf; ring). rewrite PE.
    assert (SP : dt s0 p <= 0) by (rewrite E in DP; unfold neg in DP; punf; lra).
    assert (EE : dt e e = dt s0 s0 + dt p p - 2 * dt s0 p) by (unfold e; punf; ring). pose proof (dt_pos p) as PP. pose proof (dt_pos s0) as P0.
    destruct (Rltb_spec (IZR 1 / IZR (Z.pos 10000000)) (dt e e)) as [L|L]; [|cbn in L; lra].
    assert (EN : 0 < dt e e) by (cbn in L; lra).
    assert (NE : s0 <> p) by (intros X; unfold e in EN; rewrite X in EN; punf; lra).
    assert (NZ : dt (perp e) s0 <> 0).
    { intros Z. apply NM. set (m := - dt s0 e / dt e e). assert (SE : - dt s0 e = dt s0 s0 - dt s0 p) by (unfold e; rewrite dt_mi_r; ring). assert (MM : 0 <= m <= 1).
      { assert (0 < / dt e e) by now apply Rinv_0_lt_compat. assert (m * dt e e = - dt s0 e) by (unfold m; field; lra). split; [unfold m, Rdiv; apply Rmult_le_pos; lra|]. apply Rmult_le_reg_r with (dt e e); [exact EN|]. lra. }
      replace o2 with (pl s0 (sc m (mi p s0))); [now apply MC|]. fold e. apply dt_zero.
      assert (Q : dt e e * dt (pl s0 (sc m e)) (pl s0 (sc m e)) = dt (perp e) s0 * dt (perp e) s0 + (dt s0 e + m * dt e e) * (dt s0 e + m * dt e e)) by (unfold perp; punf; ring).
      rewrite Z in Q. replace (dt s0 e + m * dt e e) with 0 in Q by (unfold m; field; lra). apply Rmult_eq_reg_l with (dt e e); lra. }
    assert (OR : dt (perp e) (mi p s0) = 0) by (unfold e, perp; punf; ring). rewrite dt_mi_r in OR.
    change (@nleb R Num_R (dt (perp e) s0) n0) with (Rleb (dt (perp e) s0) 0). destruct (Rleb_spec (dt (perp e) s0) 0) as [K|K].
    - split; [|intros x [<-|[<-|[]]]; assumption]. split; [exact NE|]. split; lra.
    - split; [|intros x [<-|[<-|[]]]; assumption]. split; [exact NE|]. change (@neg2 R Num_R) with neg. rewrite !(dt_comm (neg _)), !dt_neg, !(dt_comm _ (perp e)). split; lra.
  Qed.

  Lemma update2_3 s0 s1 d p : good2 (P2 s0 s1) d -> M p -> 0 <= dt d p -> match UpdateSimplex2D_3 s0 s1 p with Some (S', d') => good2 S' d' | None => False end.
  Proof.
    intros ((NE & ED & DN) & IM) MP DP. assert (M0 : M s0) by (apply IM; cbn; auto). assert (M1 : M s1) by (apply IM; cbn; auto).
    unfold UpdateSimplex2D_3. cbv zeta. change (@sub2 R Num_R) with mi. change (@Perp2 R Num_R) with perp. change (@Dot2 R Num_R) with dt. change (@neg2 R Num_R) with neg. change (@n0 R Num_R) with 0. change (@nleb R Num_R) with Rleb. change (@nltb R Num_R) with Rltb.
    change (v2 R) with p2. set (e12 := if Rleb (dt (mi p s0) (perp (mi p s1))) 0 then neg (perp (mi p s1)) else perp (mi p s1)). set (e02 := if Rleb (dt (mi p s1) (perp (mi p s0))) 0 then neg (perp (mi p s0)) else perp (mi p s0)).
    assert (EN : mi s1 s0 <> o2) by (intros X; apply mi_zero in X; now apply NE). pose proof (dt_ne _ EN) as EP.
    set (k := dt d (perp (mi s1 s0)) / dt (mi s1 s0) (mi s1 s0)).
    assert (DK : forall v, dt d (mi v s0) = k * turn s0 s1 v).
    { intros v. assert (X : dt (mi s1 s0) (mi s1 s0) * dt d (mi v s0) = dt d (mi s1 s0) * dt (mi s1 s0) (mi v s0) + dt d (perp (mi s1 s0)) * turn s0 s1 v) by (unfold perp; punf; ring). assert (Z : dt d (mi s1 s0) = 0) by (rewrite dt_mi_r; lra). rewrite Z in X. unfold k. apply Rmult_eq_reg_l with (dt (mi s1 s0) (mi s1 s0)); [|lra]. rewrite X. field. lra. }
    pose proof (DK p) as DKp. pose proof (DK o2) as DKo. rewrite !dt_mi_r in DKp, DKo. assert (DO : dt d o2 = 0) by (punf; ring). rewrite DO in DKo.
    assert (T0 : 0 < k * turn s0 s1 o2) by lra. assert (TP : 0 < k * turn s0 s1 p) by lra.
    assert (A12 : dt (mi p s0) (perp (mi p s1)) = - turn s0 s1 p) by (unfold perp; punf; ring). assert (A02 : dt (mi p s1) (perp (mi p s0)) = turn s0 s1 p) by (unfold perp; punf; ring).
    assert (B12 : dt s1 (perp (mi p s1)) = - turn s1 p o2) by (unfold perp; punf; ring). assert (B02 : dt s0 (perp (mi p s0)) = - turn s0 p o2) by (unfold perp; punf; ring).
    assert (NP1 : s1 <> p) by (intros X; rewrite X, turn_same in TP; lra). assert (NP0 : s0 <> p) by (intros X; rewrite X in TP; rewrite turn_back in TP; lra).
    assert (O12 : dt e12 s1 = dt e12 p) by (unfold e12; apply edge_orth). assert (O02 : dt e02 s0 = dt e02 p) by (unfold e02; apply edge_orth).
    destruct (Rltb_spec (dt s1 e12) 0) as [L1|L1].
    { split; [|intros x [<-|[<-|[]]]; assumption]. split; [exact NP1|]. split; [exact O12|]. now rewrite dt_comm. }
    destruct (Rltb_spec (dt s0 e02) 0) as [L2|L2].
    { split; [|intros x [<-|[<-|[]]]; assumption]. split; [exact NP0|]. split; [exact O02|]. now rewrite dt_comm. }
    apply NM. unfold e12 in L1. unfold e02 in L2. rewrite A12 in L1. rewrite A02 in L2. destruct (Rlt_or_le 0 k) as [K|K].
    - assert (0 < turn s0 s1 p) by nra. assert (0 < turn s0 s1 o2) by nra. rewrite (proj2 (Rleb_true _ _)) in L1 by lra. rewrite (proj2 (Rleb_false _ _)) in L2 by lra. rewrite dt_neg, B12 in L1. rewrite B02 in L2.
      apply (in_triangle2 M s0 s1 p o2); try assumption; lra.
    - assert (turn s0 s1 p < 0) by nra. assert (turn s0 s1 o2 < 0) by nra. rewrite (proj2 (Rleb_false _ _)) in L1 by lra. rewrite (proj2 (Rleb_true _ _)) in L2 by lra. rewrite B12 in L1. rewrite dt_neg, B02 in L2.
      apply (in_triangle2 M s0 p s1 o2); try assumption; try (punf; lra).
  Qed.
End Step2.

(** ** Helly's theorem in the plane *)
Definition comb3 (u v t : R) (a b c : p2) : p2 := pl (sc u a) (pl (sc v b) (sc t c)).
Lemma convex2_two (A : p2 -> Prop) a b u v : convex2 A -> A a -> A b -> 0 <= u -> 0 <= v -> u + v = 1 -> A (pl (sc u a) (sc v b)).
Proof. intros C Ha Hb U V E. replace (pl (sc u a) (sc v b)) with (pl a (sc v (mi b a))); [apply C; auto; lra|]. replace u with (1 - v) by lra. punf. apply v2_ext; cbn; ring. Qed.
Lemma convex2_three (A : p2 -> Prop) a b c u v t : convex2 A -> A a -> A b -> A c -> 0 <= u -> 0 <= v -> 0 <= t -> u + v + t = 1 -> A (comb3 u v t a b c).
Proof.
  intros C Ha Hb Hc U V T E. unfold comb3. destruct (Req_dec (v + t) 0) as [Z|Z].
  - assert (v = 0) by lra. assert (t = 0) by lra. assert (u = 1) by lra. subst. replace (pl _ _) with a; [exact Ha|]. punf. apply v2_ext; cbn; ring.
  - assert (P : 0 < v + t) by lra. assert (I : 0 < / (v + t)) by now apply Rinv_0_lt_compat. assert (Q : A (pl (sc (v / (v + t)) b) (sc (t / (v + t)) c))) by (apply convex2_two; auto; try (unfold Rdiv; apply Rmult_le_pos; lra); field; lra).
    pose proof (convex2_two A a _ u (v + t) C Ha Q U ltac:(lra) ltac:(lra)) as X. replace (pl (sc u a) (pl (sc v b) (sc t c))) with (pl (sc u a) (sc (v + t) (pl (sc (v / (v + t)) b) (sc (t / (v + t)) c)))); [exact X|]. punf. apply v2_ext; cbn; field; lra.
Qed.
Definition comb4 (u v t r : R) (a b c d : p2) : p2 := pl (sc u a) (comb3 v t r b c d).
(** Three points on a line: one is between the others. *)
Lemma between3 (a b c : p2) : turn a b c = 0 -> (exists k, 0 <= k <= 1 /\ b = pl a (sc k (mi c a))) \/ (exists k, 0 <= k <= 1 /\ c = pl a (sc k (mi b a))) \/ (exists k, 0 <= k <= 1 /\ a = pl b (sc k (mi c b))).
Proof.
  intros T. assert (LIN : forall p q r : p2, p <> q -> turn p q r = 0 -> exists k, r = pl p (sc k (mi q p))).
  { intros p q r N T'. assert (D : 0 < dt (mi q p) (mi q p)) by (apply dt_ne; intros X; apply mi_zero in X; now apply N). exists (dt (mi r p) (mi q p) / dt (mi q p) (mi q p)).
    apply v2_ext; apply Rmult_eq_reg_r with (dt (mi q p) (mi q p)); try lra.
    - transitivity (x2 p * dt (mi q p) (mi q p) + dt (mi r p) (mi q p) * (x2 q - x2 p) - (y2 q - y2 p) * turn p q r); [punf; ring|]. rewrite T'. set (D' := dt (mi q p) (mi q p)) in *. set (N' := dt (mi r p) (mi q p)). clearbody D' N'. punf. field. lra.
    - transitivity (y2 p * dt (mi q p) (mi q p) + dt (mi r p) (mi q p) * (y2 q - y2 p) + (x2 q - x2 p) * turn p q r); [punf; ring|]. rewrite T'. set (D' := dt (mi q p) (mi q p)) in *. set (N' := dt (mi r p) (mi q p)). clearbody D' N'. punf. field. lra. }
  destruct (classic (a = b)) as [->|N]; [left; exists 0; split; [lra|]; punf; apply v2_ext; cbn; ring|].
  destruct (LIN a b c N T) as (k & E). destruct (Rle_or_lt 0 k) as [K|K]; [destruct (Rle_or_lt k 1) as [K'|K']|].
  - right; left. exists k. split; [lra|exact E].
  - left. exists (/ k). assert (I : 0 < / k) by (apply Rinv_0_lt_compat; lra). split; [split; [lra|]; apply Rmult_le_reg_l with k; [lra|]; rewrite Rinv_r; lra|]. rewrite E. punf. apply v2_ext; cbn; field; lra.
  - right; right. assert (I : 0 < / (1 - k)) by (apply Rinv_0_lt_compat; lra). exists (/ (1 - k)). split; [split; [lra|]; apply Rmult_le_reg_l with (1 - k); [lra|]; rewrite Rinv_r; lra|]. rewrite E. punf. apply v2_ext; cbn; field; lra.
Qed.
Lemma helly4 (X1 X2 X3 X4 : p2 -> Prop) p1 p2' p3 p4 : convex2 X1 -> convex2 X2 -> convex2 X3 -> convex2 X4 ->
  X2 p1 -> X3 p1 -> X4 p1 -> X1 p2' -> X3 p2' -> X4 p2' -> X1 p3 -> X2 p3 -> X4 p3 -> X1 p4 -> X2 p4 -> X3 p4 -> exists p, X1 p /\ X2 p /\ X3 p /\ X4 p.
Proof.
  intros C1 C2 C3 C4 H21 H31 H41 H12 H32 H42 H13 H23 H43 H14 H24 H34.
  set (l1 := turn p2' p3 p4). set (l2 := - turn p1 p3 p4). set (l3 := turn p1 p2' p4). set (l4 := - turn p1 p2' p3).
  assert (S0 : l1 + l2 + l3 + l4 = 0) by (unfold l1, l2, l3, l4; punf; ring).
  assert (SX : l1 * x2 p1 + l2 * x2 p2' + l3 * x2 p3 + l4 * x2 p4 = 0) by (unfold l1, l2, l3, l4; punf; ring).
  assert (SY : l1 * y2 p1 + l2 * y2 p2' + l3 * y2 p3 + l4 * y2 p4 = 0) by (unfold l1, l2, l3, l4; punf; ring).
  destruct (Req_dec l4 0) as [Z|Z].
  { assert (T : turn p1 p2' p3 = 0) by (unfold l4 in Z; lra). destruct (between3 _ _ _ T) as [(k & K & E)|[(k & K & E)|(k & K & E)]].
    - exists p2'. split; [exact H12|]. split; [rewrite E; apply C2; assumption|]. auto.
    - exists p3. split; [exact H13|]. split; [exact H23|]. split; [rewrite E; apply C3; assumption|exact H43].
    - exists p1. split; [rewrite E; apply C1; assumption|]. auto. }
  clearbody l1 l2 l3 l4. set (w x := Rmax x 0). set (v x := Rmax (- x) 0). assert (WV : forall x, x = w x - v x) by (intros x; unfold w, v, Rmax; destruct (Rle_dec x 0), (Rle_dec (- x) 0); lra).
  assert (W0 : forall x, 0 <= w x) by (intros x; apply Rmax_r). assert (V0 : forall x, 0 <= v x) by (intros x; apply Rmax_r). assert (ZZ : forall x, w x = 0 \/ v x = 0) by (intros x; unfold w, v, Rmax; destruct (Rle_dec x 0), (Rle_dec (- x) 0); lra).
  rewrite (WV l1), (WV l2), (WV l3), (WV l4) in S0, SX, SY. set (W := w l1 + w l2 + w l3 + w l4). assert (EW : W = v l1 + v l2 + v l3 + v l4) by (unfold W; lra).
  assert (WP : 0 < W). { pose proof (W0 l1). pose proof (W0 l2). pose proof (W0 l3). pose proof (W0 l4). pose proof (V0 l1). pose proof (V0 l2). pose proof (V0 l3). pose proof (V0 l4). destruct (Rle_lt_or_eq_dec 0 W) as [K|K]; [unfold W; lra|exact K|]. exfalso. apply Z. rewrite (WV l4). assert (w l4 = 0) by (unfold W in K; lra). assert (v l4 = 0) by lra. lra. }
  assert (IW : 0 < / W) by now apply Rinv_0_lt_compat.
  set (r := comb4 (w l1 / W) (w l2 / W) (w l3 / W) (w l4 / W) p1 p2' p3 p4).
  assert (ER : r = comb4 (v l1 / W) (v l2 / W) (v l3 / W) (v l4 / W) p1 p2' p3 p4).
  { unfold r, comb4, comb3, pl, sc. cbn [x2 y2]. apply v2_ext; cbn [x2 y2]; unfold Rdiv; apply Rminus_diag_uniq.
    - transitivity (/ W * ((w l1 - v l1) * x2 p1 + (w l2 - v l2) * x2 p2' + (w l3 - v l3) * x2 p3 + (w l4 - v l4) * x2 p4)); [ring|]. rewrite SX. ring.
    - transitivity (/ W * ((w l1 - v l1) * y2 p1 + (w l2 - v l2) * y2 p2' + (w l3 - v l3) * y2 p3 + (w l4 - v l4) * y2 p4)); [ring|]. rewrite SY. ring. }
  assert (SW : w l1 / W + w l2 / W + w l3 / W + w l4 / W = 1) by (unfold W; field; fold W; lra). assert (SV : v l1 / W + v l2 / W + v l3 / W + v l4 / W = 1) by (transitivity ((v l1 + v l2 + v l3 + v l4) / W); [field; lra|]; rewrite <- EW; field; lra).
  assert (NW : forall x, 0 <= w x / W) by (intros x; unfold Rdiv; apply Rmult_le_pos; [apply W0|lra]). assert (NV : forall x, 0 <= v x / W) by (intros x; unfold Rdiv; apply Rmult_le_pos; [apply V0|lra]).
  assert (Z0 : forall x, x = 0 -> x / W = 0) by (intros x ->; unfold Rdiv; ring).
  assert (D1 : forall u v t r a b c d, u = 0 -> comb4 u v t r a b c d = comb3 v t r b c d) by (intros u' v' t' r' a b c d ->; unfold comb4, comb3; punf; apply v2_ext; cbn; ring).
  assert (D2 : forall u v t r a b c d, v = 0 -> comb4 u v t r a b c d = comb3 u t r a c d) by (intros u' v' t' r' a b c d ->; unfold comb4, comb3; punf; apply v2_ext; cbn; ring).
  assert (D3 : forall u v t r a b c d, t = 0 -> comb4 u v t r a b c d = comb3 u v r a b d) by (intros u' v' t' r' a b c d ->; unfold comb4, comb3; punf; apply v2_ext; cbn; ring).
  assert (D4 : forall u v t r a b c d, r = 0 -> comb4 u v t r a b c d = comb3 u v t a b c) by (intros u' v' t' r' a b c d ->; unfold comb4, comb3; punf; apply v2_ext; cbn; ring).
  exists r. repeat split.
  - destruct (ZZ l1) as [K|K]; apply Z0 in K; [unfold r|rewrite ER]; rewrite D1 by exact K; apply convex2_three; auto; lra.
  - destruct (ZZ l2) as [K|K]; apply Z0 in K; [unfold r|rewrite ER]; rewrite D2 by exact K; apply convex2_three; auto; lra.
  - destruct (ZZ l3) as [K|K]; apply Z0 in K; [unfold r|rewrite ER]; rewrite D3 by exact K; apply convex2_three; auto; lra.
  - destruct (ZZ l4) as [K|K]; apply Z0 in K; [unfold r|rewrite ER]; rewrite D4 by exact K; apply convex2_three; auto; lra.
Qed.
Lemma helly (n : nat) : forall L : list (p2 -> Prop), length L = S n -> (forall X, In X L -> convex2 X) -> (forall X Y Z, In X L -> In Y L -> In Z L -> exists p, X p /\ Y p /\ Z p) -> exists p, forall X, In X L -> X p.
Proof.
  induction n as [|n IH]; intros [|X [|Y rest]] E C T; try discriminate E.
  - destruct (T X X X) as (p & H & _); try (now left). exists p. intros Z [<-|[]]. exact H.
  - set (XY := fun p => X p /\ Y p). destruct (IH (XY :: rest)) as (p & H).
    + cbn in *. congruence.
    + intros Z [<-|Z']; [|apply C; now right; right]. intros a b t K (A1 & A2) (B1 & B2). split; [apply (C X)|apply (C Y)]; auto; [now left|now right; left].
    + assert (FOUR : forall U V, In U (X :: Y :: rest) -> In V (X :: Y :: rest) -> exists p, X p /\ Y p /\ U p /\ V p).
      { intros U V HU HV. assert (IX : In X (X :: Y :: rest)) by now left. assert (IY : In Y (X :: Y :: rest)) by now right; left.
        destruct (T Y U V IY HU HV) as (q1 & Q11 & Q12 & Q13). destruct (T X U V IX HU HV) as (q2 & Q21 & Q22 & Q23). destruct (T X Y V IX IY HV) as (q3 & Q31 & Q32 & Q33). destruct (T X Y U IX IY HU) as (q4 & Q41 & Q42 & Q43).
        apply (helly4 X Y U V q1 q2 q3 q4); auto. }
      intros A B Z HA HB HZ. assert (UP : forall U, In U (XY :: rest) -> U = XY \/ In U (X :: Y :: rest)) by (intros U [<-|U']; [now left|right; now right; right]).
      assert (IX : In X (X :: Y :: rest)) by now left.
      destruct HA as [<-|HA]; [|destruct HB as [<-|HB]; [|destruct HZ as [<-|HZ]]].
      * destruct (UP _ HB) as [->|HB']; [destruct (UP _ HZ) as [->|HZ']|destruct (UP _ HZ) as [->|HZ']].
        -- destruct (FOUR X X IX IX) as (p & P1' & P2' & _). exists p. unfold XY. auto.
        -- destruct (FOUR X Z IX HZ') as (p & P1' & P2' & _ & P4'). exists p. unfold XY. auto.
        -- destruct (FOUR X B IX HB') as (p & P1' & P2' & _ & P4'). exists p. unfold XY. auto.
        -- destruct (FOUR B Z HB' HZ') as (p & P1' & P2' & P3' & P4'). exists p. unfold XY. auto.
      * destruct (UP _ HZ) as [->|HZ']; [destruct (FOUR X A IX) as (p & P1' & P2' & _ & P4'); [now right; right|]|destruct (FOUR A Z) as (p & P1' & P2' & P3' & P4'); [now right; right|exact HZ'|]]; exists p; unfold XY; auto.
      * destruct (FOUR A B) as (p & P1' & P2' & P3' & P4'); [now right; right|now right; right|]. exists p. unfold XY. auto.
      * apply T; now right; right.
    + exists p. pose proof (H XY (or_introl eq_refl)) as (HX & HY). intros Z [<-|[<-|Z']]; auto. apply H. now right.
Qed.
