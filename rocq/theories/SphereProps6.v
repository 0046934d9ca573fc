(** C79: triangulating a sphere and drawing random points of it. *)
From Coq Require Import Reals Lra Psatz Bool List.
From Verif Require Import Num NumR ScalarModel ScalarProofs Vec3Model GeoTypes GeoSpec GeoLemmas AabbModel AabbSpec LineModel LineSpec
  LineProofs LineProps MatModel MatProofs PlaneModel PlaneSpec PlaneProps Vec3Props SphereModel SphereSpec SphereProps.
Import ListNotations.
Open Scope R_scope.

(** The points seen from the centre through a triangle. *)
Definition in_cone (a b c x : pt) : Prop := exists i j k, 0 <= i /\ 0 <= j /\ 0 <= k /\ x = plus (plus (scale i a) (scale j b)) (scale k c).
Definition tvol (t : triangle R) : R := volume (tri_a t) (tri_b t) (tri_c t).
Definition good (r : R) (o : R) (t : triangle R) : Prop :=
  norm (tri_a t) = r /\ norm (tri_b t) = r /\ norm (tri_c t) = r /\
  0 <= dot (tri_a t) (tri_b t) /\ 0 <= dot (tri_a t) (tri_c t) /\ 0 <= dot (tri_b t) (tri_c t) /\ 0 < o * tvol t.
Definition tcone (t : triangle R) (x : pt) : Prop := in_cone (tri_a t) (tri_b t) (tri_c t) x.

Lemma mid_on (a b : pt) r : 1 / 500 <= r -> norm a = r -> norm b = r -> 0 <= dot a b ->
  exists k, 0 < k /\ ScaledToLength (vmuls (vadd a b) nhalf) r = scale k (plus a b) /\ norm (scale k (plus a b)) = r.
Proof.
  intros R0 A B D. set (m := vmuls (vadd a b) nhalf). assert (M : m = scale (/ 2) (plus a b)) by (unfold m; rewrite vmuls_R; replace (@nhalf R Num_R) with (/ 2) by (change (@nhalf R Num_R) with (1 / 2); lra); reflexivity).
  assert (Q : dot m m = (r * r + dot a b) / 2). { rewrite M, dot_scale_l, dot_scale_r, !dot_plus_l, !dot_plus_r, <- !norm_sq, (dot_comm b a). fold (norm a) (norm b). rewrite A, B. lra. }
  assert (N : norm m * norm m = (r * r + dot a b) / 2) by (rewrite norm_sq; exact Q). pose proof (norm_pos m) as NP. assert (NP' : 0 < norm m) by nra.
  exists (r / norm m / 2). split; [apply Rmult_lt_0_compat; [apply Rdiv_lt_0_compat|]; lra|].
  assert (E : scale (r / norm m / 2) (plus a b) = scale (r / norm m) m). { generalize (norm m) NP'. intros z Z. rewrite M. unfold scale. apply vec_ext; cbn [vx vy vz]; field; lra. }
  split.
  - unfold ScaledToLength, ScaleToLength. rewrite LengthSq_R. cbv zeta. rewrite nlit_R. rsimpl. rewrite (proj2 (Rltb_false _ _)) by nra. cbn [fst]. change (sqrt (dot m m)) with (norm m). rewrite E. unfold scale. apply vec_ext; cbn [vx vy vz]; ring.
  - rewrite E, norm_scale, Rabs_pos_eq by (left; apply Rdiv_lt_0_compat; lra). field. lra.
Qed.
Lemma sub_good (r o : R) (t : triangle R) : 1 / 500 <= r -> good r o t ->
  (forall u, In u (Sphere_Subdivide r t) -> good r o u) /\ (forall x, tcone t x -> exists u, In u (Sphere_Subdivide r t) /\ tcone u x).
Proof.
  intros R0 (NA & NB & NC & AB & AC & BC & V). destruct t as [A B C]. unfold tcone, tvol in *. cbn [tri_a tri_b tri_c] in *.
  destruct (mid_on A B r R0 NA NB AB) as (k & K & Ea & Na). destruct (mid_on A C r R0 NA NC AC) as (l & L & Eb & Nb). destruct (mid_on B C r R0 NB NC BC) as (m & M & Ec & Nc).
  unfold Sphere_Subdivide. cbv zeta. cbn [tri_a tri_b tri_c]. rewrite Ea, Eb, Ec. clear Ea Eb Ec. pose proof (Rlt_trans 0 (1/500) r ltac:(lra) ltac:(lra)) as RP || assert (RP : 0 < r) by lra.
  assert (SA : dot A A = r * r) by (rewrite <- NA at 1; rewrite <- norm_sq, NA; reflexivity). assert (SB : dot B B = r * r) by (rewrite <- norm_sq, NB; reflexivity). assert (SC : dot C C = r * r) by (rewrite <- norm_sq, NC; reflexivity).
  assert (P2 : forall x y, 0 < x -> 0 <= y -> 0 <= x * y) by (intros; nra). assert (R2 : 0 <= r * r) by nra.
  split.
  - assert (KL : 0 < k * l) by nra. assert (KM : 0 < k * m) by nra. assert (LM : 0 < l * m) by nra. assert (KLM : 0 < k * l * m) by nra.
    assert (V1 : volume A (scale k (plus A B)) (scale l (plus A C)) = k * l * volume A B C) by (unfold volume, scale, plus; cbn [vx vy vz]; ring).
    assert (V2 : volume B (scale m (plus B C)) (scale k (plus A B)) = k * m * volume A B C) by (unfold volume, scale, plus; cbn [vx vy vz]; ring).
    assert (V3' : volume C (scale l (plus A C)) (scale m (plus B C)) = l * m * volume A B C) by (unfold volume, scale, plus; cbn [vx vy vz]; ring).
    assert (V4 : volume (scale k (plus A B)) (scale m (plus B C)) (scale l (plus A C)) = 2 * (k * l * m) * volume A B C) by (unfold volume, scale, plus; cbn [vx vy vz]; ring).
    intros u [<-|[<-|[<-|[<-|[]]]]]; unfold good, tvol; cbn [tri_a tri_b tri_c]; (split; [assumption|]; split; [assumption|]; split; [assumption|]);
      rewrite ?V1, ?V2, ?V3', ?V4, ?dot_scale_l, ?dot_scale_r, ?dot_plus_l, ?dot_plus_r, ?dot_scale_l, ?dot_scale_r, ?dot_plus_l, ?dot_plus_r, ?SA, ?SB, ?SC, ?(dot_comm B A), ?(dot_comm C A), ?(dot_comm C B);
      (split; [repeat apply P2; lra|]; split; [repeat apply P2; lra|]; split; [repeat apply P2; lra|]).
    + replace (o * (k * l * volume A B C)) with (k * l * (o * volume A B C)) by ring. nra.
    + replace (o * (k * m * volume A B C)) with (k * m * (o * volume A B C)) by ring. nra.
    + replace (o * (l * m * volume A B C)) with (l * m * (o * volume A B C)) by ring. nra.
    + replace (o * (2 * (k * l * m) * volume A B C)) with (2 * (k * l * m) * (o * volume A B C)) by ring. nra.
  - intros x (i & j & h & I & J & H & X).
    assert (DV : forall y z, 0 <= y -> 0 < z -> 0 <= y / z) by (intros; apply Rmult_le_pos; [assumption|left; now apply Rinv_0_lt_compat]).
    destruct (Rle_dec (j + h) i) as [C1|C1]; [|destruct (Rle_dec (i + h) j) as [C2|C2]; [|destruct (Rle_dec (i + j) h) as [C3|C3]]].
    + eexists. split; [left; reflexivity|]. exists (i - j - h), (j / k), (h / l). split; [lra|]. split; [now apply DV|]. split; [now apply DV|].
      rewrite X. cbn [tri_a tri_b tri_c]. unfold plus, scale. cbn [vx vy vz]. apply vec_ext; cbn [vx vy vz]; field; lra.
    + eexists. split; [right; left; reflexivity|]. exists (j - i - h), (h / m), (i / k). split; [lra|]. split; [now apply DV|]. split; [now apply DV|].
      rewrite X. cbn [tri_a tri_b tri_c]. unfold plus, scale. cbn [vx vy vz]. apply vec_ext; cbn [vx vy vz]; field; lra.
    + eexists. split; [right; right; left; reflexivity|]. exists (h - i - j), (i / l), (j / m). split; [lra|]. split; [now apply DV|]. split; [now apply DV|].
      rewrite X. cbn [tri_a tri_b tri_c]. unfold plus, scale. cbn [vx vy vz]. apply vec_ext; cbn [vx vy vz]; field; lra.
    + eexists. split; [right; right; right; left; reflexivity|]. exists ((i + j - h) / 2 / k), ((j + h - i) / 2 / m), ((i + h - j) / 2 / l). split; [apply DV; lra|]. split; [apply DV; lra|]. split; [apply DV; lra|].
      rewrite X. cbn [tri_a tri_b tri_c]. unfold plus, scale. cbn [vx vy vz]. apply vec_ext; cbn [vx vy vz]; field; lra.
Qed.
Lemma loop_good (r o : R) n : 1 / 500 <= r -> forall fuel q, q <> [] ->
  (forall t, In t q -> good r o t) -> (forall x, exists t, In t q /\ tcone t x) -> (3 * length q <= n)%nat -> (n < 3 * (length q + 3 * fuel) + 9)%nat ->
  let l := tri_loop fuel r n q in
  (forall t, In t l -> good r o t) /\ (forall x, exists t, In t l /\ tcone t x) /\ (3 * length l <= n < 3 * length l + 9)%nat.
Proof.
  intros R0. induction fuel as [|f IH]; intros q NE G C L F; cbn [tri_loop]; cbv zeta.
  - split; [exact G|]. split; [exact C|]. Lia.lia.
  - destruct (Nat.leb_spec ((length q + 3) * 3) n) as [H|H].
    + destruct q as [|t q]; [now destruct NE|]. destruct (sub_good r o t R0 (G t (or_introl eq_refl))) as [S1 S2]. cbn [length] in *.
      assert (LEN : length (q ++ Sphere_Subdivide r t) = (length q + 4)%nat) by (rewrite app_length; reflexivity). apply IH.
      * intros E. apply app_eq_nil in E. destruct E as [_ E]. discriminate E.
      * intros u U. apply in_app_iff in U. destruct U as [U|U]; [apply G; now right|now apply S1].
      * intros x. destruct (C x) as (u & [<-|U] & X); [destruct (S2 x X) as (u & U & X')|]; exists u; (split; [apply in_app_iff; tauto|assumption]).
      * rewrite LEN. Lia.lia.
      * rewrite LEN. Lia.lia.
    + split; [exact G|]. split; [exact C|]. Lia.lia.
Qed.
Lemma diamond_good (r : R) (ccw : bool) : 0 < r ->
  (forall t, In t (Sphere_Diamond r ccw) -> good r (if ccw then -1 else 1) t) /\ (forall x, exists t, In t (Sphere_Diamond r ccw) /\ tcone t x).
Proof.
  intros R0. unfold Sphere_Diamond. cbv zeta. rsimpl. set (xp := V3 r 0 0). set (xn := V3 (- r) 0 0). set (yp := V3 0 r 0). set (yn := V3 0 (- r) 0). set (zp := V3 0 0 r). set (zn := V3 0 0 (- r)).
  assert (N : forall v, dot v v = r * r -> norm v = r) by (intros v V; unfold norm; rewrite V; apply sqrt_square; lra).
  assert (R3 : 0 < r * r * r) by (assert (0 < r * r) by nra; nra).
  split.
  - assert (NN : norm xp = r /\ norm xn = r /\ norm yp = r /\ norm yn = r /\ norm zp = r /\ norm zn = r) by (repeat split; apply N; unfold xp, xn, yp, yn, zp, zn, dot; cbn [vx vy vz]; ring).
    destruct NN as (N1 & N2 & N3 & N4 & N5 & N6).
    assert (K : forall t, In t (if ccw then [Tri yp xp zp; Tri xp yp zn; Tri yn zp xp; Tri yn xp zn; Tri zp xn yp; Tri yp xn zn; Tri yn xn zp; Tri xn yn zn]
        else [Tri yp zp xp; Tri xp zn yp; Tri yn xp zp; Tri yn zn xp; Tri zp yp xn; Tri yp zn xn; Tri yn zp xn; Tri xn zn yn]) -> good r (if ccw then -1 else 1) t); [|intros t T; apply K; destruct ccw; exact T].
    intros t T. destruct ccw; cbn [In] in T; repeat (destruct T as [<-|T]; [unfold good, tvol; cbn [tri_a tri_b tri_c]; repeat (split; [assumption|]);
      unfold volume, dot, xp, xn, yp, yn, zp, zn; cbn [vx vy vz]; repeat (split; [lra|]); lra|]); destruct T.
  - intros x.
    assert (S : forall v p, (v = xp \/ v = xn \/ v = yp \/ v = yn \/ v = zp \/ v = zn) -> scale 0 v = V3 0 0 p -> True) by trivial. clear S.
    assert (PX : exists v i, 0 <= i /\ (v = xp \/ v = xn) /\ scale i v = V3 (vx x) 0 0).
    { destruct (Rle_dec 0 (vx x)); [exists xp, (vx x / r)|exists xn, (- vx x / r)]; (split; [apply Rmult_le_pos; [lra|left; now apply Rinv_0_lt_compat]|]; split; [tauto|]; unfold scale, xp, xn; cbn [vx vy vz]; apply vec_ext; cbn [vx vy vz]; field; lra). }
    assert (PY : exists v i, 0 <= i /\ (v = yp \/ v = yn) /\ scale i v = V3 0 (vy x) 0).
    { destruct (Rle_dec 0 (vy x)); [exists yp, (vy x / r)|exists yn, (- vy x / r)]; (split; [apply Rmult_le_pos; [lra|left; now apply Rinv_0_lt_compat]|]; split; [tauto|]; unfold scale, yp, yn; cbn [vx vy vz]; apply vec_ext; cbn [vx vy vz]; field; lra). }
    assert (PZ : exists v i, 0 <= i /\ (v = zp \/ v = zn) /\ scale i v = V3 0 0 (vz x)).
    { destruct (Rle_dec 0 (vz x)); [exists zp, (vz x / r)|exists zn, (- vz x / r)]; (split; [apply Rmult_le_pos; [lra|left; now apply Rinv_0_lt_compat]|]; split; [tauto|]; unfold scale, zp, zn; cbn [vx vy vz]; apply vec_ext; cbn [vx vy vz]; field; lra). }
    destruct PX as (u & i & I & U & Ei). destruct PY as (v & j & J & V & Ej). destruct PZ as (w & k & K & W & Ek).
    assert (X1 : x = plus (plus (scale i u) (scale j v)) (scale k w)) by (rewrite Ei, Ej, Ek; unfold plus; cbn [vx vy vz]; apply vec_ext; cbn [vx vy vz]; ring).
    assert (CY : forall a b c i' j' k', 0 <= i' -> 0 <= j' -> 0 <= k' -> plus (plus (scale i' a) (scale j' b)) (scale k' c) = x -> tcone (Tri a b c) x) by (intros a b c i' j' k' A B C E; exists i', j', k'; cbn [tri_a tri_b tri_c]; auto).
    assert (PM : forall a b c : pt, plus (plus a b) c = plus (plus a c) b /\ plus (plus a b) c = plus (plus b a) c /\ plus (plus a b) c = plus (plus b c) a /\ plus (plus a b) c = plus (plus c a) b /\ plus (plus a b) c = plus (plus c b) a).
    { intros. unfold plus. cbn [vx vy vz]. repeat split; apply vec_ext; cbn [vx vy vz]; ring. }
    destruct (PM (scale i u) (scale j v) (scale k w)) as (M1 & M2 & M3 & M4 & M5). clear Ei Ej Ek.
    assert (ALL : tcone (Tri u v w) x /\ tcone (Tri u w v) x /\ tcone (Tri v u w) x /\ tcone (Tri v w u) x /\ tcone (Tri w u v) x /\ tcone (Tri w v u) x).
    { split; [apply (CY u v w i j k)|split; [apply (CY u w v i k j)|split; [apply (CY v u w j i k)|split; [apply (CY v w u j k i)|split; [apply (CY w u v k i j)|apply (CY w v u k j i)]]]]]; try assumption; congruence. }
    clearbody xp xn yp yn zp zn. destruct ALL as (A1 & A2 & A3 & A4 & A5 & A6).
    destruct ccw, U, V, W; subst u v w;
      match goal with H : tcone ?t x |- exists t, In t ?l /\ _ => exists t; split; [cbn [In]; solve [repeat (first [left; reflexivity|right])]|exact H] end.
Qed.
(** At least 24 vertices: between n - 8 and n of them, in triples; every vertex on the sphere; all triangles wound the same way,
    seen from outside clockwise for [ccwIsFrontFacing] and counterclockwise otherwise (in a right-handed frame); and the ray from
    the centre in any direction passes through some triangle. *)
Theorem C79_triangulate (s : sphere R) (n : nat) (ccw : bool) : (24 <= n)%nat -> 1 / 500 <= srad s ->
  exists ts : list (triangle R),
    Sphere_Triangulate s n ccw = flat_map (fun t => [tri_a t; tri_b t; tri_c t]) ts /\
    (3 * length ts <= n < 3 * length ts + 9)%nat /\ length (Sphere_Triangulate s n ccw) = (3 * length ts)%nat /\
    (forall p, In p (Sphere_Triangulate s n ccw) -> on_surface s p) /\
    (forall t, In t ts -> let V := volume (minus (tri_a t) (spos s)) (minus (tri_b t) (spos s)) (minus (tri_c t) (spos s)) in if ccw then V < 0 else 0 < V) /\
    (forall d, exists t, In t ts /\ in_cone (minus (tri_a t) (spos s)) (minus (tri_b t) (spos s)) (minus (tri_c t) (spos s)) d).
Proof.
  intros N R0. set (r := srad s) in *. assert (RP : 0 < r) by lra. destruct (diamond_good r ccw RP) as [G C]. set (o := if ccw then -1 else 1) in *.
  destruct (loop_good r o n R0 n (Sphere_Diamond r ccw)) as (L1 & L2 & L3); try assumption.
  { unfold Sphere_Diamond. destruct ccw; discriminate. } { replace (length (Sphere_Diamond r ccw)) with 8%nat by (unfold Sphere_Diamond; destruct ccw; reflexivity). Lia.lia. } { Lia.lia. }
  set (l := tri_loop n r n (Sphere_Diamond r ccw)) in *. set (mv := fun t : triangle R => Tri (plus (spos s) (tri_a t)) (plus (spos s) (tri_b t)) (plus (spos s) (tri_c t))).
  assert (E : Sphere_Triangulate s n ccw = flat_map (fun t => [tri_a t; tri_b t; tri_c t]) (map mv l)).
  { unfold Sphere_Triangulate. replace (Nat.ltb n 24) with false by (symmetry; apply Nat.ltb_ge; Lia.lia). fold r. change (tri_loop n r n (Sphere_Diamond r ccw)) with l. clearbody l. clear. induction l as [|t l IH]; cbn [flat_map map]; [reflexivity|]. rewrite IH. reflexivity. }
  assert (LEN : forall q : list (triangle R), length (flat_map (fun t => [tri_a t; tri_b t; tri_c t]) q) = (3 * length q)%nat) by (clear; induction q as [|t q IH]; cbn [flat_map]; [reflexivity|rewrite app_length, IH; cbn [length]; Lia.lia]).
  assert (SUB : forall v, minus (plus (spos s) v) (spos s) = v) by (intros v; unfold minus, plus; cbn [vx vy vz]; apply vec_ext; cbn [vx vy vz]; ring).
  exists (map mv l). split; [exact E|]. rewrite map_length. split; [exact L3|]. split; [rewrite E, LEN, map_length; reflexivity|]. split; [|split].
  - intros p P. rewrite E in P. apply in_flat_map in P. destruct P as (t' & T & P). apply in_map_iff in T. destruct T as (t & <- & T). destruct (L1 t T) as (NA & NB & NC & _).
    assert (D : forall v, norm v = r -> on_surface s (plus (spos s) v)).
    { intros v V. unfold on_surface, dist. fold r. rewrite <- V. replace (minus (spos s) (plus (spos s) v)) with (scale (-1) v) by (unfold minus, plus, scale; cbn [vx vy vz]; apply vec_ext; cbn [vx vy vz]; ring). rewrite norm_scale. rewrite (Rabs_left (-1)) by lra. lra. }
    unfold mv in P. cbn [tri_a tri_b tri_c] in P. destruct P as [<-|[<-|[<-|[]]]]; now apply D.
  - intros t' T. apply in_map_iff in T. destruct T as (t & <- & T). destruct (L1 t T) as (_ & _ & _ & _ & _ & _ & V). unfold mv. cbn [tri_a tri_b tri_c]. rewrite !SUB. unfold tvol, o in V. destruct ccw; cbv zeta; lra.
  - intros d. destruct (L2 d) as (t & T & X). exists (mv t). split; [now apply in_map|]. unfold mv. cbn [tri_a tri_b tri_c]. now rewrite !SUB.
Qed.
Print Assumptions C79_triangulate.
Example C79_triangulate_witness : (24 <= 60)%nat /\ 1 / 500 <= srad (Sph (V3 1 2 3) 1). Proof. split; [Lia.lia|cbn; lra]. Qed.
Theorem C79_too_few (s : sphere R) (n : nat) (ccw : bool) : (n < 24)%nat -> Sphere_Triangulate s n ccw = [].
Proof. intros H. unfold Sphere_Triangulate. now rewrite (proj2 (Nat.ltb_lt n 24) H). Qed.
Print Assumptions C79_too_few.

(** Random points: whatever the generator returns. *)
Theorem C79_random (s : sphere R) (draw : nat -> R) : 0 <= srad s ->
  in_sphere s (Sphere_RandomPointInside s draw) /\ on_surface s (Sphere_RandomPointOnSurface s draw).
Proof.
  intros R0.
  assert (D : forall v, dist (spos s) (plus (spos s) v) = norm v). { intros v. unfold dist. replace (minus (spos s) (plus (spos s) v)) with (scale (-1) v) by (unfold minus, plus, scale; cbn [vx vy vz]; apply vec_ext; cbn [vx vy vz]; ring). rewrite norm_scale. rewrite (Rabs_left (-1)) by lra. lra. }
  split.
  - unfold Sphere_RandomPointInside. enough (G : forall m k, in_sphere s (random_inside m k s draw)) by apply G. induction m as [|m IH]; intros k; cbn [random_inside].
    + unfold in_sphere, dist. replace (minus (spos s) (spos s)) with (scale 0 (spos s)) by (unfold minus, scale; cbn [vx vy vz]; apply vec_ext; cbn [vx vy vz]; ring). rewrite norm_scale, Rabs_R0. lra.
    + cbv zeta. rewrite LengthSq_R. rsimpl. set (v := V3 _ _ _). destruct (Rleb_spec (dot v v) (srad s * srad s)) as [H|H]; [|apply IH].
      unfold in_sphere. change (vadd (spos s) v) with (plus (spos s) v). rewrite D. rewrite <- norm_sq in H. pose proof (norm_pos v). nra.
  - unfold Sphere_RandomPointOnSurface. enough (G : forall m k, on_surface s (random_surface m k s draw)) by apply G. induction m as [|m IH]; intros k; cbn [random_surface].
    + unfold on_surface. change (vadd (spos s) (V3 (srad s) n0 n0)) with (plus (spos s) (V3 (srad s) 0 0)). rewrite D. unfold norm, dot. cbn [vx vy vz]. match goal with |- sqrt ?x = _ => replace x with (srad s * srad s) by ring end. now apply sqrt_square.
    + cbv zeta. rewrite LengthSq_R, nlit_R. rsimpl. set (v := V3 _ _ _). destruct (Rleb_spec (1 / 1000000) (dot v v)) as [H|H]; cbn [andb]; [|apply IH]. destruct (Rleb_spec (dot v v) 1) as [K|K]; [|apply IH].
      unfold on_surface. change (vadd (spos s) (smulv (srad s / sqrt (dot v v)) v)) with (plus (spos s) (scale (srad s / norm v) v)). rewrite D, norm_scale. assert (P : 0 < norm v) by (apply sqrt_lt_R0; lra).
      rewrite Rabs_pos_eq by (apply Rmult_le_pos; [assumption|left; now apply Rinv_0_lt_compat]). field. lra.
Qed.
Print Assumptions C79_random.
