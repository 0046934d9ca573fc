(** Smallest enclosing discs of the plane: uniqueness, three points, Helly's theorem for discs, four points. *)
From Coq Require Import Reals Lra Psatz Bool List Lia.
From Verif Require Import Num NumR ScalarModel ScalarProofs Vec2Model Vec2Spec Vec2Props Flat2Model Flat2Spec Flat2Props.
Import ListNotations.
Open Scope R_scope.

Definition sq2 (a b : p2) : R := dt (mi a b) (mi a b).
Lemma sq2_pos a b : 0 <= sq2 a b. Proof. unfold sq2, dt. nra. Qed.
Lemma sq2_dst a b : dst a b * dst a b = sq2 a b. Proof. apply sqrt_sqrt, sq2_pos. Qed.
Lemma sq2_sym a b : sq2 a b = sq2 b a. Proof. unfold sq2, dt, mi. cbn [x2 y2]. ring. Qed.
Lemma in_disc_sq c r q : 0 <= r -> (in_disc c r q <-> sq2 c q <= r * r).
Proof.
  intros H. unfold in_disc. rewrite <- sq2_dst. assert (P := dst_pos c q). split; intros L; [apply Rmult_le_compat; lra|]. apply Rnot_lt_le. intros L'. nra.
Qed.
Lemma in_disc_sqrt c k q : 0 <= k -> (in_disc c (sqrt k) q <-> sq2 c q <= k).
Proof. intros H. rewrite in_disc_sq by apply sqrt_pos. now rewrite sqrt_sqrt. Qed.
Definition encl (l : list p2) (c : p2) (r : R) : Prop := forall q, In q l -> in_disc c r q.
Lemma encl_pos l c r q : In q l -> encl l c r -> 0 <= r.
Proof. intros I E. specialize (E q I). unfold in_disc in E. assert (P := dst_pos c q). lra. Qed.
Lemma sum_sq0 u v : u * u + v * v = 0 -> u = 0 /\ v = 0.
Proof. intros H. assert (A : 0 <= u * u) by nra. assert (B : 0 <= v * v) by nra. split; apply Rsqr_0_uniq; unfold Rsqr; lra. Qed.
(** The centre of a smallest disc is the only one. *)
Lemma smallest_unique l c r c' : l <> [] -> smallest_disc l c r -> encl l c' r -> c' = c.
Proof.
  intros NE [E M] E'. destruct l as [|q0 l]; [contradiction|]. assert (R0 : 0 <= r) by (apply (encl_pos (q0 :: l) c r q0); [now left|exact E]).
  set (m := sc (1 / 2) (pl c c')). set (d := sq2 c c').
  assert (K : forall q, In q (q0 :: l) -> sq2 m q <= r * r - d / 4).
  { intros q I. assert (A := proj1 (in_disc_sq c r q R0) (E q I)). assert (B := proj1 (in_disc_sq c' r q R0) (E' q I)).
    replace (sq2 m q) with ((sq2 c q + sq2 c' q) / 2 - d / 4) by (unfold m, d, sq2, dt, mi, sc, pl; cbn [x2 y2]; field). lra. }
  assert (D0 : 0 <= d) by apply sq2_pos. assert (KQ := K q0 (or_introl eq_refl)). assert (P := sq2_pos m q0).
  assert (L : r <= sqrt (r * r - d / 4)). { apply (M m). intros q I. apply in_disc_sqrt; [lra|]. now apply K. }
  assert (LL : r * r <= r * r - d / 4) by (apply Rle_trans with (sqrt (r * r - d / 4) * sqrt (r * r - d / 4)); [apply Rmult_le_compat; lra|rewrite sqrt_sqrt; lra]).
  assert (Z : d = 0) by lra. unfold d, sq2, dt, mi in Z; cbn [x2 y2] in Z. destruct (sum_sq0 _ _ Z). apply v2_ext; lra.
Qed.
Lemma smallest_radius l c r c' r' : smallest_disc l c r -> smallest_disc l c' r' -> r = r'.
Proof. intros [E M] [E' M']. apply Rle_antisym; [now apply (M c')|now apply (M' c)]. Qed.
Lemma smallest_ext l l' c r : (forall q, In q l <-> In q l') -> smallest_disc l c r -> smallest_disc l' c r.
Proof. intros H [E M]. split; [intros q I; apply E, H, I|]. intros c' r' F. apply (M c'). intros q I. apply F, H, I. Qed.
(** A disc whose centre is a mean (with weights) of enclosed points on its rim is smallest. *)
Lemma smallest_rim (l : list p2) (c p q s : p2) (k u v w : R) : encl l c (sqrt k) -> 0 <= k -> In p l -> In q l -> In s l -> 0 <= u -> 0 <= v -> 0 <= w -> u + v + w = 1 ->
  sq2 c p = k -> sq2 c q = k -> sq2 c s = k -> c = pl (sc u p) (pl (sc v q) (sc w s)) -> smallest_disc l c (sqrt k).
Proof.
  intros E K Ip Iq Is U V W S Kp Kq Ks C. split; [exact E|]. intros c' r' E'. assert (R0 : 0 <= r') by exact (encl_pos _ _ _ _ Ip E').
  assert (A := proj1 (in_disc_sq c' r' p R0) (E' p Ip)). assert (B := proj1 (in_disc_sq c' r' q R0) (E' q Iq)). assert (D := proj1 (in_disc_sq c' r' s R0) (E' s Is)).
  assert (X : x2 c = u * x2 p + (v * x2 q + w * x2 s)) by (rewrite C; reflexivity). assert (Y : y2 c = u * y2 p + (v * y2 q + w * y2 s)) by (rewrite C; reflexivity).
  assert (I : u * sq2 c' p + v * sq2 c' q + w * sq2 c' s = k + sq2 c' c).
  { replace k with (u * sq2 c p + v * sq2 c q + w * sq2 c s) by (rewrite Kp, Kq, Ks; replace u with (1 - v - w) by lra; ring). unfold sq2, dt, mi. cbn [x2 y2]. rewrite X, Y. assert (u = 1 - v - w) by lra. subst u. ring. }
  assert (P := sq2_pos c' c). apply Rsqr_incr_0_var; [|exact R0]. unfold Rsqr. rewrite sqrt_sqrt by exact K. nra.
Qed.
(** Three points 0, x, y: AB = |x|^2, AC = |y|^2. *)
Definition gram (x y : p2) : R := dt x x * dt y y - dt x y * dt x y.
Lemma gram_area x y : gram x y = area2 x y * area2 x y.
Proof. unfold gram, dt, area2. ring. Qed.
Definition good3 (x y : p2) : Prop := gram x y = 0 \/ 1 / 100000 <= gram x y.
Lemma muls2_R a k : muls2 a k = sc k a. Proof. apply v2_ext; unfold muls2, sc; rsimpl; cbn; ring. Qed.
Lemma mid_pair (l : list p2) (p q : p2) : In p l -> In q l -> encl l (sc (1 / 2) (pl p q)) (sqrt (sq2 p q / 4)) -> smallest_disc l (sc (1 / 2) (pl p q)) (sqrt (sq2 p q / 4)).
Proof.
  intros Ip Iq E. assert (P := sq2_pos p q). apply (smallest_rim l _ p q q (sq2 p q / 4) (1 / 2) (1 / 2) 0); try lra; auto; try (unfold sq2, dt, mi, sc, pl; cbn [x2 y2]; field). apply v2_ext; unfold sc, pl; cbn [x2 y2]; field.
Qed.
Lemma encl3 a b d c k : 0 <= k -> sq2 c a <= k -> sq2 c b <= k -> sq2 c d <= k -> encl [a; b; d] c (sqrt k).
Proof. intros K A B D q [<-|[<-|[<-|[]]]]; now apply in_disc_sqrt. Qed.
Lemma make_circle (x y : p2) : good3 x y -> let c := MakeCircleSq (dt x x) (dt y y) x y in
  0 <= c2r c /\ smallest_disc [o2; x; y] (c2pos c) (sqrt (c2r c)).
Proof.
  intros G. cbv zeta. unfold MakeCircleSq. change (@Dot2 R Num_R x y) with (dt x y). change (LengthSq2 ?a) with (dt a a). rewrite !muls2_R. change (@add2 R Num_R) with pl. change (@smul2 R Num_R) with sc. cbv zeta.
  change (nhalf : R) with (nlit 1%Z 2%positive : R). change (n2 : R) with (nlit 2%Z 1%positive : R). rewrite !nlit_R. rsimpl. fold (gram x y).
  assert (GP : 0 <= gram x y) by (rewrite gram_area; nra). rewrite Abs_R, (Rabs_right (gram x y)) by lra.
  assert (A0 : 0 <= dt x x) by (unfold dt; nra). assert (C0 : 0 <= dt y y) by (unfold dt; nra).
  assert (MX : forall h, h = 1 / 2 -> dt y y - dt x y <= 0 \/ (dt y y <= dt x y /\ True) -> smallest_disc [o2; x; y] (sc h x) (sqrt (dt x x * (1 / 4)))).
  { intros h -> H. assert (E : sq2 o2 x / 4 = dt x x * (1 / 4)) by (unfold sq2, dt, mi, o2; cbn [x2 y2]; field). rewrite <- E. replace (sc (1 / 2) x) with (sc (1 / 2) (pl o2 x)) by (apply v2_ext; unfold sc, pl, o2; cbn; ring).
    apply mid_pair; [now left|right; now left|]. rewrite E. apply encl3; [lra|unfold sq2, dt, mi, sc, pl, o2; cbn [x2 y2]; lra|unfold sq2, dt, mi, sc, pl, o2; cbn [x2 y2]; lra|].
    replace (sq2 (sc (1 / 2) (pl o2 x)) y) with (dt x x * (1 / 4) + (dt y y - dt x y)) by (unfold sq2, dt, mi, sc, pl, o2; cbn [x2 y2]; field). lra. }
  assert (MY : forall h, h = 1 / 2 -> dt x x - dt x y <= 0 -> smallest_disc [o2; x; y] (sc h y) (sqrt (dt y y * (1 / 4)))).
  { intros h -> H. assert (E : sq2 o2 y / 4 = dt y y * (1 / 4)) by (unfold sq2, dt, mi, o2; cbn [x2 y2]; field). rewrite <- E. replace (sc (1 / 2) y) with (sc (1 / 2) (pl o2 y)) by (apply v2_ext; unfold sc, pl, o2; cbn; ring).
    apply mid_pair; [now left|right; right; now left|]. rewrite E. apply encl3; [lra|unfold sq2, dt, mi, sc, pl, o2; cbn [x2 y2]; lra| |unfold sq2, dt, mi, sc, pl, o2; cbn [x2 y2]; lra].
    replace (sq2 (sc (1 / 2) (pl o2 y)) x) with (dt y y * (1 / 4) + (dt x x - dt x y)) by (unfold sq2, dt, mi, sc, pl, o2; cbn [x2 y2]; field). lra. }
  assert (MZ : forall h k, h = 1 / 2 -> k = (dt x x + dt y y - 2 * dt x y) * (1 / 4) -> dt x y <= 0 -> 0 <= k /\ smallest_disc [o2; x; y] (sc h (pl x y)) (sqrt k)).
  { intros h k -> -> H. split; [lra|]. assert (E : sq2 x y / 4 = (dt x x + dt y y - 2 * dt x y) * (1 / 4)) by (unfold sq2, dt, mi; cbn [x2 y2]; field). rewrite <- E.
    apply mid_pair; [right; now left|right; right; now left|]. rewrite E. apply encl3; [lra| |unfold sq2, dt, mi, sc, pl, o2; cbn [x2 y2]; lra|unfold sq2, dt, mi, sc, pl, o2; cbn [x2 y2]; lra].
    replace (sq2 (sc (1 / 2) (pl x y)) o2) with ((dt x x + dt y y - 2 * dt x y) * (1 / 4) + dt x y) by (unfold sq2, dt, mi, sc, pl, o2; cbn [x2 y2]; field). lra. }
  destruct (Rltb_spec (gram x y) (1 / 100000)) as [L|L].
  - destruct G as [G|G]; [|lra]. unfold gram in G. destruct (Rltb_spec 0 (dt x y)) as [P|P]; [destruct (Rltb_spec (dt y y) (dt x x)) as [Q|Q]|].
    + cbn [c2pos c2r]. split; [lra|]. apply MX; [lra|left; nra].
    + cbn [c2pos c2r]. split; [lra|]. apply MY; [lra|nra].
    + cbn [c2pos c2r]. apply MZ; [lra|field|lra].
  - assert (GN : gram x y <> 0) by lra. set (h := 1 / 2 / gram x y). assert (HP : 0 < h) by (unfold h; apply Rmult_lt_0_compat; [lra|apply Rinv_0_lt_compat; lra]). assert (HG : h * gram x y = 1 / 2) by (unfold h; field; exact GN).
    set (s := (dt y y * dt x x - dt x y * dt y y) * h). set (t := (dt y y * dt x x - dt x y * dt x x) * h).
    destruct (Rltb_spec s 0) as [S|S]; [|destruct (Rltb_spec t 0) as [U|U]; [|destruct (Rltb_spec 1 (s + t)) as [V|V]]]; cbn [c2pos c2r].
    + split; [lra|]. apply MY; [lra|]. apply Rnot_lt_le. intros Z. unfold s in S. assert (0 <= dt y y * (dt x x - dt x y)) by (apply Rmult_le_pos; lra). nra.
    + split; [lra|]. apply MX; [lra|left]. apply Rnot_lt_le. intros Z. unfold t in U. assert (0 <= dt x x * (dt y y - dt x y)) by (apply Rmult_le_pos; lra). nra.
    + apply MZ; [lra|field|]. apply Rnot_lt_le. intros Z. assert (W : s + t = 1 - h * (dt x y * (dt x x + dt y y - 2 * dt x y))).
      { unfold s, t. replace 1 with (2 * (h * gram x y)) at 1 by (rewrite HG; lra). unfold gram. ring. }
      assert (0 <= dt x x + dt y y - 2 * dt x y) by (replace (dt x x + dt y y - 2 * dt x y) with (sq2 x y) by (unfold sq2, dt, mi; cbn [x2 y2]; ring); apply sq2_pos).
      assert (0 <= h * (dt x y * (dt x x + dt y y - 2 * dt x y))) by (apply Rmult_le_pos; [lra|apply Rmult_le_pos; lra]). lra.
    + set (c := pl (sc s x) (sc t y)). assert (CP : 0 <= dt c c) by (unfold dt; nra). split; [exact CP|].
      assert (CX : dt c x = dt x x / 2).
      { transitivity (dt x x * (h * gram x y)); [|rewrite HG; field]. unfold c, s, t, gram. transitivity (dt x x * ((dt y y * dt x x - dt x y * dt y y) * h) + dt x y * ((dt y y * dt x x - dt x y * dt x x) * h)); [unfold pl, sc; unfold dt at 1; cbn [x2 y2]; unfold dt; ring|ring]. }
      assert (CY : dt c y = dt y y / 2).
      { transitivity (dt y y * (h * gram x y)); [|rewrite HG; field]. unfold c, s, t, gram. transitivity (dt x y * ((dt y y * dt x x - dt x y * dt y y) * h) + dt y y * ((dt y y * dt x x - dt x y * dt x x) * h)); [unfold pl, sc; unfold dt at 1; cbn [x2 y2]; unfold dt; ring|ring]. }
      assert (S0 : sq2 c o2 = dt c c) by (unfold sq2, dt, mi, o2; cbn [x2 y2]; ring).
      assert (SX : sq2 c x = dt c c) by (transitivity (dt c c - 2 * dt c x + dt x x); [unfold sq2, dt, mi; cbn [x2 y2]; ring|rewrite CX; field]).
      assert (SY : sq2 c y = dt c c) by (transitivity (dt c c - 2 * dt c y + dt y y); [unfold sq2, dt, mi; cbn [x2 y2]; ring|rewrite CY; field]).
      apply (smallest_rim _ c o2 x y (dt c c) (1 - s - t) s t); try lra; [apply encl3; lra|now left|right; now left|right; right; now left|]. apply v2_ext; unfold c, pl, sc, o2; cbn [x2 y2]; ring.
Qed.
(** Helly's theorem for four discs of one radius, through Radon's partition. *)
Lemma mean_disc (m1 m2 m3 m4 k : R) (x1 x2' x3 x4 q : p2) : 0 <= m1 -> 0 <= m2 -> 0 <= m3 -> 0 <= m4 -> m1 + m2 + m3 + m4 = 1 ->
  (m1 = 0 \/ sq2 x1 q <= k) -> (m2 = 0 \/ sq2 x2' q <= k) -> (m3 = 0 \/ sq2 x3 q <= k) -> (m4 = 0 \/ sq2 x4 q <= k) ->
  sq2 (pl (sc m1 x1) (pl (sc m2 x2') (pl (sc m3 x3) (sc m4 x4)))) q <= k.
Proof.
  intros P1 P2 P3 P4 S H1 H2 H3 H4. set (z := pl (sc m1 x1) (pl (sc m2 x2') (pl (sc m3 x3) (sc m4 x4)))).
  assert (I : m1 * sq2 x1 q + m2 * sq2 x2' q + m3 * sq2 x3 q + m4 * sq2 x4 q = sq2 z q + (m1 * sq2 x1 z + m2 * sq2 x2' z + m3 * sq2 x3 z + m4 * sq2 x4 z)).
  { assert (X : x2 z = m1 * x2 x1 + (m2 * x2 x2' + (m3 * x2 x3 + m4 * x2 x4))) by reflexivity. assert (Y : y2 z = m1 * y2 x1 + (m2 * y2 x2' + (m3 * y2 x3 + m4 * y2 x4))) by reflexivity.
    unfold sq2, dt, mi. cbn [x2 y2]. rewrite X, Y. replace m1 with (1 - m2 - m3 - m4) by lra. ring. }
  assert (B : forall m s, 0 <= m -> m = 0 \/ s <= k -> m * s <= m * k) by (intros m s Pm [->|L]; [lra|apply Rmult_le_compat_l; lra]).
  assert (B1 := B _ _ P1 H1). assert (B2 := B _ _ P2 H2). assert (B3 := B _ _ P3 H3). assert (B4 := B _ _ P4 H4).
  assert (N : forall m s, 0 <= m -> 0 <= s -> 0 <= m * s) by (intros; now apply Rmult_le_pos).
  assert (N1 := N _ _ P1 (sq2_pos x1 z)). assert (N2 := N _ _ P2 (sq2_pos x2' z)). assert (N3 := N _ _ P3 (sq2_pos x3 z)). assert (N4 := N _ _ P4 (sq2_pos x4 z)).
  assert (K : m1 * k + m2 * k + m3 * k + m4 * k = k) by (replace m1 with (1 - m2 - m3 - m4) by lra; ring). lra.
Qed.
Lemma radon (p1 p2' p3 p4 : p2) : exists l1 l2 l3 l4 : R, l1 + l2 + l3 + l4 = 0 /\ ~ (l1 = 0 /\ l2 = 0 /\ l3 = 0 /\ l4 = 0) /\
  pl (sc l1 p1) (pl (sc l2 p2') (pl (sc l3 p3) (sc l4 p4))) = o2.
Proof.
  assert (D : forall a b g, pl (sc a (mi p2' p1)) (pl (sc b (mi p3 p1)) (sc g (mi p4 p1))) = o2 -> ~ (a = 0 /\ b = 0 /\ g = 0) ->
    exists l1 l2 l3 l4 : R, l1 + l2 + l3 + l4 = 0 /\ ~ (l1 = 0 /\ l2 = 0 /\ l3 = 0 /\ l4 = 0) /\ pl (sc l1 p1) (pl (sc l2 p2') (pl (sc l3 p3) (sc l4 p4))) = o2).
  { intros a b g E N. exists (- (a + b + g)), a, b, g. split; [ring|]. split; [tauto|]. injection E as EX EY. apply v2_ext; unfold pl, sc, mi, o2 in *; cbn [x2 y2] in *; lra. }
  set (e1 := mi p2' p1) in *. set (e2 := mi p3 p1) in *. set (e3 := mi p4 p1) in *.
  destruct (Req_dec (area2 e1 e2) 0) as [Z|Z].
  - destruct (Req_dec (dt e1 e1) 0) as [Y|Y].
    + apply (D 1 0 0); [|lra]. unfold dt in Y. destruct (sum_sq0 _ _ Y) as [A B]. apply v2_ext; unfold pl, sc, o2; cbn [x2 y2]; lra.
    + apply (D (dt e1 e2) (- dt e1 e1) 0); [|lra]. unfold area2 in Z. apply v2_ext; unfold pl, sc, o2, dt; cbn [x2 y2].
      * transitivity (y2 e1 * (x2 e1 * y2 e2 - y2 e1 * x2 e2)); [ring|]. replace (x2 e1 * y2 e2 - y2 e1 * x2 e2) with 0 by lra. ring.
      * transitivity (- x2 e1 * (x2 e1 * y2 e2 - y2 e1 * x2 e2)); [ring|]. replace (x2 e1 * y2 e2 - y2 e1 * x2 e2) with 0 by lra. ring.
  - apply (D (area2 e2 e3) (area2 e3 e1) (area2 e1 e2)); [|tauto]. apply v2_ext; unfold pl, sc, o2, area2; cbn [x2 y2]; ring.
Qed.
Lemma helly4 (q1 q2 q3 q4 z1 z2 z3 z4 : p2) (k : R) :
  sq2 z1 q2 <= k -> sq2 z1 q3 <= k -> sq2 z1 q4 <= k -> sq2 z2 q1 <= k -> sq2 z2 q3 <= k -> sq2 z2 q4 <= k ->
  sq2 z3 q1 <= k -> sq2 z3 q2 <= k -> sq2 z3 q4 <= k -> sq2 z4 q1 <= k -> sq2 z4 q2 <= k -> sq2 z4 q3 <= k ->
  exists z, sq2 z q1 <= k /\ sq2 z q2 <= k /\ sq2 z q3 <= k /\ sq2 z q4 <= k.
Proof.
  intros A12 A13 A14 A21 A23 A24 A31 A32 A34 A41 A42 A43. destruct (radon z1 z2 z3 z4) as (l1 & l2 & l3 & l4 & S & NZ & E).
  set (P := Rmax l1 0 + Rmax l2 0 + Rmax l3 0 + Rmax l4 0).
  assert (PP : 0 < P) by (unfold P, Rmax; destruct (Rle_dec l1 0), (Rle_dec l2 0), (Rle_dec l3 0), (Rle_dec l4 0); try lra; exfalso; apply NZ; lra).
  assert (MP : forall l, 0 <= Rmax l 0 / P) by (intros l; apply Rmult_le_pos; [unfold Rmax; destruct (Rle_dec l 0); lra|left; now apply Rinv_0_lt_compat]).
  assert (MZ : forall l, l <= 0 -> Rmax l 0 / P = 0) by (intros l L; rewrite Rmax_right by exact L; field; lra).
  set (u := fun l => Rmax l 0 / P). set (w := fun l => Rmax (- l) 0 / P).
  assert (UW : forall l, u l - w l = l / P) by (intros l; unfold u, w, Rmax; destruct (Rle_dec l 0), (Rle_dec (- l) 0); [assert (l = 0) by lra; subst l| | |exfalso; lra]; field; lra).
  assert (US : u l1 + u l2 + u l3 + u l4 = 1) by (unfold u; transitivity (P / P); [unfold P at 5; field; lra|field; lra]).
  assert (WS : w l1 + w l2 + w l3 + w l4 = 1).
  { assert (u l1 - w l1 + (u l2 - w l2) + (u l3 - w l3) + (u l4 - w l4) = 0) by (rewrite !UW; transitivity ((l1 + l2 + l3 + l4) / P); [field; lra|rewrite S; field; lra]). lra. }
  set (z := pl (sc (u l1) z1) (pl (sc (u l2) z2) (pl (sc (u l3) z3) (sc (u l4) z4)))).
  assert (ZW : z = pl (sc (w l1) z1) (pl (sc (w l2) z2) (pl (sc (w l3) z3) (sc (w l4) z4)))).
  { assert (V : forall l, u l = w l + l / P) by (intros l; rewrite <- UW; ring). injection E as EX EY. unfold z. rewrite !V. apply v2_ext; unfold pl, sc in *; cbn [x2 y2] in *.
    - transitivity (w l1 * x2 z1 + (w l2 * x2 z2 + (w l3 * x2 z3 + w l4 * x2 z4)) + (l1 * x2 z1 + (l2 * x2 z2 + (l3 * x2 z3 + l4 * x2 z4))) / P); [field; lra|rewrite EX; field; lra].
    - transitivity (w l1 * y2 z1 + (w l2 * y2 z2 + (w l3 * y2 z3 + w l4 * y2 z4)) + (l1 * y2 z1 + (l2 * y2 z2 + (l3 * y2 z3 + l4 * y2 z4))) / P); [field; lra|rewrite EY; field; lra]. }
  assert (UZ : forall l, l <= 0 -> u l = 0) by (intros; now apply MZ). assert (WZ : forall l, 0 <= l -> w l = 0) by (intros; apply MZ; lra).
  assert (UP : forall l, 0 <= u l) by (intros; apply MP). assert (WP : forall l, 0 <= w l) by (intros; apply MP). clearbody u w.
  exists z. repeat split.
  - destruct (Rle_dec l1 0) as [L|L]; [|rewrite ZW]; apply mean_disc; auto; left; apply WZ; lra.
  - destruct (Rle_dec l2 0) as [L|L]; [|rewrite ZW]; apply mean_disc; auto; left; apply WZ; lra.
  - destruct (Rle_dec l3 0) as [L|L]; [|rewrite ZW]; apply mean_disc; auto; left; apply WZ; lra.
  - destruct (Rle_dec l4 0) as [L|L]; [|rewrite ZW]; apply mean_disc; auto; left; apply WZ; lra.
Qed.
(** The largest of the smallest discs of three out of four points holds the fourth. *)
Lemma encl_mono l c r r' : encl l c r -> r <= r' -> encl l c r'.
Proof. intros E L q I. specialize (E q I). unfold in_disc in *. lra. Qed.
Lemma largest_holds (a b c d ca cb cc cd : p2) (ra rb rc rd : R) : smallest_disc [b; c; d] ca ra -> smallest_disc [a; c; d] cb rb -> smallest_disc [a; b; d] cc rc ->
  smallest_disc [a; b; c] cd rd -> rb <= ra -> rc <= ra -> rd <= ra -> in_disc ca ra a.
Proof.
  intros A B C D LB LC LD. assert (R0 : 0 <= ra) by (apply (encl_pos [b; c; d] ca ra b); [now left|exact (proj1 A)]).
  assert (EA := proj1 A). assert (EB := encl_mono _ _ _ _ (proj1 B) LB). assert (EC := encl_mono _ _ _ _ (proj1 C) LC). assert (ED := encl_mono _ _ _ _ (proj1 D) LD).
  assert (K : forall l z q, encl l z ra -> In q l -> sq2 z q <= ra * ra) by (intros l z q E I; apply in_disc_sq; [exact R0|now apply E]).
  destruct (helly4 a b c d ca cb cc cd (ra * ra)) as (z & Za & Zb & Zc & Zd); try (eapply K; [eassumption|cbn; tauto]).
  assert (z = ca) by (apply (smallest_unique [b; c; d] ca ra z); [discriminate|exact A|]; intros q [<-|[<-|[<-|[]]]]; now apply in_disc_sq). subst z. now apply in_disc_sq.
Qed.
Lemma one_holds (a b c d ca cb cc cd : p2) (ra rb rc rd : R) : smallest_disc [b; c; d] ca ra -> smallest_disc [a; c; d] cb rb -> smallest_disc [a; b; d] cc rc ->
  smallest_disc [a; b; c] cd rd -> ~ in_disc ca ra a -> in_disc cb rb b \/ in_disc cc rc c \/ in_disc cd rd d.
Proof.
  intros A B C D N. assert (EXT : forall l l' z r, smallest_disc l z r -> (forall q, In q l <-> In q l') -> smallest_disc l' z r) by (intros; now apply (smallest_ext l)).
  destruct (Rle_dec rb ra), (Rle_dec rc ra), (Rle_dec rd ra); try (exfalso; apply N; eapply largest_holds; eassumption).
  all: destruct (Rle_dec rc rb), (Rle_dec rd rb), (Rle_dec rd rc); try lra.
  all: first [ left; apply (largest_holds b a c d cb ca cc cd rb ra rc rd); [eassumption|eassumption|apply (EXT _ _ _ _ C); cbn; tauto|apply (EXT _ _ _ _ D); cbn; tauto|lra|lra|lra]
             | right; left; apply (largest_holds c a b d cc ca cb cd rc ra rb rd); [eassumption|apply (EXT _ _ _ _ A); cbn; tauto|apply (EXT _ _ _ _ B); cbn; tauto|apply (EXT _ _ _ _ D); cbn; tauto|lra|lra|lra]
             | right; right; apply (largest_holds d a b c cd ca cb cc rd ra rb rc); [eassumption|apply (EXT _ _ _ _ A); cbn; tauto|apply (EXT _ _ _ _ B); cbn; tauto|apply (EXT _ _ _ _ C); cbn; tauto|lra|lra|lra] ].
Qed.
Lemma sq2_shift v p q : sq2 (pl p v) (pl q v) = sq2 p q.
Proof. unfold sq2, dt, mi, pl. cbn [x2 y2]. ring. Qed.
Lemma in_disc_shift v c r q : in_disc (pl c v) r (pl q v) <-> in_disc c r q.
Proof. unfold in_disc. assert (E : dst (pl c v) (pl q v) = dst c q) by (unfold dst, nrm; f_equal; apply sq2_shift). now rewrite E. Qed.
Lemma pl_mi p v : pl (mi p v) v = p. Proof. apply v2_ext; unfold pl, mi; cbn; ring. Qed.
Lemma pl_neg p v : mi (pl p v) v = p. Proof. apply v2_ext; unfold pl, mi; cbn; ring. Qed.
Lemma smallest_shift l v c r : smallest_disc l c r -> smallest_disc (map (fun p => pl p v) l) (pl c v) r.
Proof.
  intros [E M]. split.
  - intros q I. apply in_map_iff in I. destruct I as (p & <- & I). apply in_disc_shift. now apply E.
  - intros c' r' F. apply (M (mi c' v)). intros q I. apply (in_disc_shift v). rewrite pl_mi. apply F. now apply (in_map (fun p => pl p v)).
Qed.
(** The smallest disc of a, b, c as MakeCircleSq gives it. *)
Definition disc3 (a b c : p2) : circle2 R := let x := mi b a in let y := mi c a in let k := MakeCircleSq (dt x x) (dt y y) x y in Circ2 (pl (c2pos k) a) (sqrt (c2r k)).
Definition good (a b c : p2) : Prop := good3 (mi b a) (mi c a).
Lemma disc3_smallest a b c : good a b c -> smallest_disc [a; b; c] (c2pos (disc3 a b c)) (c2r (disc3 a b c)).
Proof.
  intros G. destruct (make_circle _ _ G) as [_ H]. apply (smallest_shift _ a) in H. unfold disc3. cbn [c2pos c2r]. cbn [map] in H. rewrite !pl_mi in H. now replace (pl o2 a) with a in H by (apply v2_ext; unfold pl, o2; cbn; ring).
Qed.
Lemma smallest_more l q c r : smallest_disc l c r -> in_disc c r q -> smallest_disc (q :: l) c r.
Proof. intros [E M] H. split; [intros p [<-|I]; [exact H|now apply E]|]. intros c' r' F. apply (M c'). intros p I. apply F. now right. Qed.
Lemma smallest4 (a b c d : p2) (c0 : p2) (r0 : R) : good a b c -> good a b d -> good a c d -> smallest_disc [b; c; d] c0 r0 -> ~ in_disc c0 r0 a ->
  let '(k, red) := SmallestCircleSqEnclosing4Points a b c d in
  smallest_disc [a; b; c; d] (pl (c2pos k) a) (sqrt (c2r k)) /\
  (red = 2%nat /\ smallest_disc [b; c; a] (pl (c2pos k) a) (sqrt (c2r k)) \/
   red = 1%nat /\ smallest_disc [b; a; d] (pl (c2pos k) a) (sqrt (c2r k)) \/
   red = 0%nat /\ smallest_disc [a; c; d] (pl (c2pos k) a) (sqrt (c2r k))).
Proof.
  intros G0 G1 G2 S N. assert (D0 := disc3_smallest _ _ _ G0). assert (D1 := disc3_smallest _ _ _ G1). assert (D2 := disc3_smallest _ _ _ G2).
  destruct (make_circle _ _ G0) as [P0 _]. destruct (make_circle _ _ G1) as [P1 _]. destruct (make_circle _ _ G2) as [P2 _].
  assert (O := one_holds a b c d c0 _ _ _ r0 _ _ _ S D2 D1 D0 N). unfold disc3 in *. cbn [c2pos c2r] in *.
  unfold SmallestCircleSqEnclosing4Points. change (@sub2 R Num_R) with mi. change (@Dot2 R Num_R) with dt.
  set (k0 := MakeCircleSq (dt (mi b a) (mi b a)) (dt (mi c a) (mi c a)) (mi b a) (mi c a)) in *. set (k1 := MakeCircleSq (dt (mi b a) (mi b a)) (dt (mi d a) (mi d a)) (mi b a) (mi d a)) in *.
  set (k2 := MakeCircleSq (dt (mi c a) (mi c a)) (dt (mi d a) (mi d a)) (mi c a) (mi d a)) in *. cbv zeta. change (LengthSq2 (mi ?u ?v)) with (sq2 u v). rsimpl.
  assert (T : forall k q, 0 <= c2r k -> (in_disc (pl (c2pos k) a) (sqrt (c2r k)) q <-> sq2 (c2pos k) (mi q a) <= c2r k)).
  { intros k q P. rewrite in_disc_sqrt by exact P. rewrite <- (sq2_shift a (c2pos k)), pl_mi. tauto. }
  rewrite !T in O by assumption.
  destruct (Rleb_spec (sq2 (c2pos k0) (mi d a)) (c2r k0)) as [L0|L0].
  { split; [|left; split; [reflexivity|]]; [|revert D0; apply smallest_ext; cbn; tauto]. apply (smallest_ext [d; a; b; c]); [cbn; tauto|]. apply smallest_more; [exact D0|]. now apply T. }
  destruct (Rleb_spec (sq2 (c2pos k1) (mi c a)) (c2r k1)) as [L1|L1].
  { split; [|right; left; split; [reflexivity|]]; [|revert D1; apply smallest_ext; cbn; tauto]. apply (smallest_ext [c; a; b; d]); [cbn; tauto|]. apply smallest_more; [exact D1|]. now apply T. }
  destruct (Rleb_spec (sq2 (c2pos k2) (mi b a)) (c2r k2)) as [L2|L2].
  { split; [|right; right; split; [reflexivity|exact D2]]. apply (smallest_ext [b; a; c; d]); [cbn; tauto|]. apply smallest_more; [exact D2|]. now apply T. }
  exfalso. lra.
Qed.
