(** C78, continued: OptimalEnclosingSphere of an array. *)
From Coq Require Import Reals Lra Psatz Bool List.
From Verif Require Import Num NumR ScalarModel ScalarProofs Vec3Model GeoTypes GeoSpec GeoLemmas AabbModel AabbSpec LineModel LineSpec
  LineProofs LineProps MatModel MatSpec MatProofs PlaneModel PlaneSpec PlaneProps Vec3Props SphereModel SphereSpec SphereProps SphereProps4.
Import ListNotations.
Open Scope R_scope.

(** Up to four points are enclosed. *)
Theorem C78_up_to_four (pts : list pt) (fuel : nat) : pts <> [] -> (length pts <= 4)%nat -> exists s, Sphere_Optimal fuel pts = Some s /\ encloses s pts.
Proof.
  intros N L. destruct pts as [|a [|b [|c [|d [|e l]]]]]; [now destruct N| | | | |cbn in L; Lia.lia]; cbn [Sphere_Optimal]; (eexists; split; [reflexivity|]).
  - intros p [<-|[]]. unfold in_sphere. cbn. unfold dist. replace (minus a a) with origin by (unfold minus, origin; apply vec_ext; cbn; ring). unfold norm, origin, dot. cbn. replace (0 * 0 + 0 * 0 + 0 * 0) with 0 by ring. rewrite sqrt_0. lra.
  - apply C78_optimal2.
  - apply C78_optimal3.
  - apply C78_optimal4.
Qed.
Print Assumptions C78_up_to_four.
(** The bound on the number of iterations does not influence a result. *)
Theorem C78_fuel (pts : list pt) (n m : nat) (s : sphere R) : Sphere_Optimal n pts = Some s -> (n <= m)%nat -> Sphere_Optimal m pts = Some s.
Proof.
  assert (G : forall n m st i, opt_loop n pts st i = Some s -> (n <= m)%nat -> opt_loop m pts st i = Some s).
  { clear. induction n as [|n IH]; intros m st i H L; destruct m as [|m]; cbn [opt_loop] in *; try assumption; try Lia.lia.
    - destruct (Nat.ltb i (length pts)); [discriminate H|exact H].
    - destruct (Nat.ltb i (length pts)); [|exact H]. destruct (opt_step pts st i) as [st' i']. apply IH; [exact H|Lia.lia]. }
  destruct pts as [|a [|b [|c [|d [|e l]]]]]; cbn [Sphere_Optimal]; try (intros; assumption). apply G.
Qed.
Print Assumptions C78_fuel.

Lemma sph_contains_true (x y z r p q t : R) : (x - p) * (x - p) + (y - q) * (y - q) + (z - t) * (z - t) <= r * r -> Sphere_Contains (Sph (V3 x y z) r) (V3 p q t) = true.
Proof. intros H. unfold Sphere_Contains, DistanceSq. cbn [spos srad vx vy vz]. rsimpl. now apply Rleb_true. Qed.
Lemma sph_contains_false (x y z r p q t : R) : r * r < (x - p) * (x - p) + (y - q) * (y - q) + (z - t) * (z - t) -> Sphere_Contains (Sph (V3 x y z) r) (V3 p q t) = false.
Proof. intros H. unfold Sphere_Contains, DistanceSq. cbn [spos srad vx vy vz]. rsimpl. apply Rleb_false. lra. Qed.
Lemma sph_eps_true (x y z r p q t : R) : (x - p) * (x - p) + (y - q) * (y - q) + (z - t) * (z - t) <= r * r -> Sphere_ContainsEps (Sph (V3 x y z) r) (V3 p q t) sEpsilon = true.
Proof. intros H. unfold Sphere_ContainsEps, DistanceSq, sEpsilon. rewrite nlit_R. cbn [spos srad vx vy vz]. rsimpl. apply Rleb_true. lra. Qed.
Lemma fat_eq p r r' : r + 2 / 10000 = r' -> fat (Sph p r) = Sph p r'.
Proof. intros H. unfold fat. cbn [spos srad]. now rewrite H. Qed.
Lemma flat4 (a b c d : pt) : vz a = 0 -> vz b = 0 -> vz c = 0 -> vz d = 0 -> Sphere_Optimal4 a b c d = fat (outside4 a b c d).
Proof.
  intros A B C D. rewrite Optimal4_R, Fit4_none; [reflexivity|]. replace (volume (minus b a) (minus c a) (minus d a)) with 0; [lra|].
  unfold volume, minus. cbn [vx vy vz]. rewrite A, B, C, D. ring.
Qed.
Lemma through_at (p q o m : pt) r : dot (minus p o) (minus q o) <= 0 -> vmuls (vadd p q) nhalf = m -> 0 <= r -> dot (minus p q) (minus p q) = (2 * r) * (2 * r) -> through3 p q o = Sph m r.
Proof.
  intros H M R0 Q. pose proof (through_obtuse p q o H) as S. unfold through3 in *. cbv zeta in *. cbn [srad] in S. rewrite S, M. f_equal. unfold dist, norm. rewrite Q, sqrt_square by lra. lra.
Qed.
(** Points on a line parallel to y. *)
Lemma box_col (x p q t : R) mn mx r : Rmin (Rmin p q) t = mn -> Rmax (Rmax p q) t = mx -> r = (mx - mn) / 2 + 2 / 10000 -> mn <= mx ->
  Sphere_Optimal3 (V3 x p 0) (V3 x q 0) (V3 x t 0) = Sph (V3 x ((mn + mx) / 2) 0) r.
Proof.
  intros M N E L. destruct (Optimal3_R (V3 x p 0) (V3 x q 0) (V3 x t 0)) as [A _]. cbv zeta in A. rewrite A; clear A.
  - unfold fat, box3, vMin, vMax. rewrite !Min_R, !Max_R. cbn [vx vy vz spos srad]. rewrite M, N, !Rmin_left, !Rmax_left by (try rewrite Rmin_left; try rewrite Rmax_left; lra).
    replace (vmuls (vadd (V3 x mn 0) (V3 x mx 0)) nhalf) with (V3 x ((mn + mx) / 2) 0) by (unfold vmuls, vadd, nhalf; rsimpl; cbn [vx vy vz]; apply vec_ext; cbn [vx vy vz]; rnum; field).
    f_equal. rewrite E. f_equal. change (@Distance R Num_R) with dist. unfold dist, norm, minus, dot. cbn [vx vy vz]. match goal with |- sqrt ?z = _ => replace z with ((mx - mn) / 2 * ((mx - mn) / 2)) by field end. apply sqrt_square. lra.
  - left. unfold minus, dot. cbn [vx vy vz]. lra.
Qed.
Ltac nfar := intros F; unfold far_fit, minus, dot in F; cbn [vx vy vz] in F; destruct F as [F|[F|F]]; [lra| |];
  match type of F with _ < Rabs ?x => assert (-10 < x < 10) by lra; revert F; unfold Rabs; destruct Rcase_abs; lra end.
Ltac midp := unfold vmuls, vadd, nhalf; rsimpl; cbn [vx vy vz]; apply vec_ext; cbn [vx vy vz]; rnum; field.

(** The counterexample: six points of the plane z = 0. *)
Definition q0 : pt := V3 (-4) 2 0. Definition q1 : pt := V3 (-2) 4 0. Definition q2 : pt := V3 (-2) (-1) 0.
Definition q3 : pt := V3 (-2) 3 0. Definition q4 : pt := V3 (-2) (-2) 0. Definition q5 : pt := V3 4 (-4) 0.
Lemma rmin3 a b c m : (m = a \/ m = b \/ m = c) -> m <= a -> m <= b -> m <= c -> Rmin (Rmin a b) c = m.
Proof. intros H A B C. unfold Rmin. destruct (Rle_dec a b), (Rle_dec _ c); lra. Qed.
Lemma rmax3 a b c m : (m = a \/ m = b \/ m = c) -> a <= m -> b <= m -> c <= m -> Rmax (Rmax a b) c = m.
Proof. intros H A B C. unfold Rmax. destruct (Rle_dec a b), (Rle_dec _ c); lra. Qed.
Lemma t_012 : Sphere_Optimal3 q0 q1 q2 = Sph (V3 (-2) (3/2) 0) (25002 / 10000).
Proof.
  destruct (Optimal3_R q0 q1 q2) as [_ B]. cbv zeta in B. rewrite B; [|unfold q0, q1, q2; nfar]. clear B. unfold q0, q1, q2, minus, dot. cbn [vx vy vz].
  rewrite (proj2 (Rltb_false _ _)) by lra. rewrite (proj2 (Rltb_false _ _)) by lra. rewrite (proj2 (Rltb_true _ _)) by lra.
  rewrite (through_at _ _ _ (V3 (-2) (3/2) 0) (5/2)); [apply fat_eq; lra|unfold dot, minus; cbn [vx vy vz]; lra|midp|lra|unfold dot, minus; cbn [vx vy vz]; lra].
Qed.
Lemma t_123 : Sphere_Optimal3 q1 q2 q3 = Sph (V3 (-2) (3/2) 0) (25002 / 10000).
Proof. unfold q1, q2, q3. replace (3 / 2) with ((-1 + 4) / 2) by lra. apply box_col; [apply rmin3; lra|apply rmax3; lra|lra|lra]. Qed.
Lemma t_124 : Sphere_Optimal3 q1 q2 q4 = Sph (V3 (-2) 1 0) (30002 / 10000).
Proof. unfold q1, q2, q4. replace 1 with ((-2 + 4) / 2) by lra. apply box_col; [apply rmin3; lra|apply rmax3; lra|lra|lra]. Qed.
Lemma t_125 : Sphere_Optimal3 q1 q2 q5 = Sph (V3 1 0 0) (50002 / 10000).
Proof.
  destruct (Optimal3_R q1 q2 q5) as [_ B]. cbv zeta in B. rewrite B; [|unfold q1, q2, q5; nfar]. clear B. unfold q1, q2, q5, minus, dot. cbn [vx vy vz].
  rewrite (proj2 (Rltb_true _ _)) by lra.
  rewrite (through_at _ _ _ (V3 1 0 0) 5); [apply fat_eq; lra|unfold dot, minus; cbn [vx vy vz]; lra|midp|lra|unfold dot, minus; cbn [vx vy vz]; lra].
Qed.
Lemma f_0123 : Sphere_Optimal4 q0 q1 q2 q3 = Sph (V3 (-2) (3/2) 0) (25004 / 10000).
Proof. rewrite flat4 by reflexivity. unfold outside4. cbv zeta. rewrite t_012. unfold q3. rewrite sph_contains_true by lra. apply fat_eq. lra. Qed.
Lemma f_1234 : Sphere_Optimal4 q1 q2 q3 q4 = Sph (V3 (-2) 1 0) (30004 / 10000).
Proof. rewrite flat4 by reflexivity. unfold outside4. cbv zeta. rewrite t_123, t_124. unfold q3, q4. rewrite sph_contains_false by lra. rewrite sph_contains_true by lra. apply fat_eq. lra. Qed.
Lemma f_1235 : Sphere_Optimal4 q1 q2 q3 q5 = Sph (V3 1 0 0) (50004 / 10000).
Proof. rewrite flat4 by reflexivity. unfold outside4. cbv zeta. rewrite t_123, t_125. unfold q3, q5. rewrite sph_contains_false by lra. rewrite sph_contains_true by lra. apply fat_eq. lra. Qed.
Lemma g_01234 : Sphere_Optimal5 q0 q1 q2 q3 q4 = (Sph (V3 (-2) 1 0) (30004 / 10000), 0%nat).
Proof. unfold Sphere_Optimal5. cbv zeta. rewrite f_1234. unfold q0. rewrite sph_eps_true by lra. reflexivity. Qed.
Lemma g_41235 : Sphere_Optimal5 q4 q1 q2 q3 q5 = (Sph (V3 1 0 0) (50004 / 10000), 0%nat).
Proof. unfold Sphere_Optimal5. cbv zeta. rewrite f_1235. unfold q4. rewrite sph_eps_true by lra. reflexivity. Qed.
Lemma far_true (x y z r p q t : R) : r * r + 1 / 10000 < (p - x) * (p - x) + (q - y) * (q - y) + (t - z) * (t - z) -> nltb (nadd (nmul r r) sEpsilon) (DistanceSq (V3 p q t) (V3 x y z)) = true.
Proof. intros H. unfold DistanceSq, sEpsilon. rewrite nlit_R. cbn [vx vy vz]. rsimpl. now apply Rltb_true. Qed.
Lemma far_false (x y z r p q t : R) : (p - x) * (p - x) + (q - y) * (q - y) + (t - z) * (t - z) <= r * r -> nltb (nadd (nmul r r) sEpsilon) (DistanceSq (V3 p q t) (V3 x y z)) = false.
Proof. intros H. unfold DistanceSq, sEpsilon. rewrite nlit_R. cbn [vx vy vz]. rsimpl. apply Rltb_false. lra. Qed.
(** The result leaves the first point outside: after an exchange the scan restarts at the second point. *)
Theorem C78_array_refuted : exists (pts : list pt) (fuel : nat) (s : sphere R), Sphere_Optimal fuel pts = Some s /\ ~ encloses s pts /\
  exists p, In p pts /\ srad s + 38 / 100 < dist (spos s) p.
Proof.
  set (pts := [q0; q1; q2; q3; q4; q5]). exists pts, 12%nat, (Sph (V3 1 0 0) (50004 / 10000)).
  assert (FAR : srad (Sph (V3 1 0 0) (50004 / 10000)) + 38 / 100 < dist (spos (Sph (V3 1 0 0) (50004 / 10000))) q0).
  { cbn [spos srad]. pose proof (dist_pos (V3 1 0 0) q0). assert (dist (V3 1 0 0) q0 * dist (V3 1 0 0) q0 = 29) by (unfold dist; rewrite norm_sq; unfold q0, minus, dot; cbn [vx vy vz]; lra). nra. }
  split; [|split; [|exists q0; split; [now left|exact FAR]]].
  - change (opt_loop 12 pts (opt_start pts) 4 = Some (Sph (V3 1 0 0) (50004 / 10000))).
    change (opt_start pts) with (OptSt [0;1;2;3]%nat [true;true;true;true] (Sphere_Optimal4 q0 q1 q2 q3)). rewrite f_0123.
    assert (skip : forall n sp ex s i, existsb (Nat.eqb i) sp = true -> (i < 6)%nat -> opt_loop (S n) pts (OptSt sp ex s) i = opt_loop n pts (OptSt sp ex s) (S i)).
    { intros n sp ex s i H L. cbn [opt_loop]. replace (Nat.ltb i (length pts)) with true by (symmetry; now apply Nat.ltb_lt). unfold opt_step. cbn [os_sp]. now rewrite H. }
    assert (S1 : opt_loop 12 pts (OptSt [0;1;2;3]%nat [true;true;true;true] (Sph (V3 (-2) (3/2) 0) (25004 / 10000))) 4 =
      opt_loop 11 pts (OptSt [4;1;2;3]%nat [false;true;true;true] (Sph (V3 (-2) 1 0) (30004 / 10000))) 1).
    { cbn [opt_loop]. change (Nat.ltb 4 (length pts)) with true. cbv iota.
      replace (opt_step pts (OptSt [0;1;2;3]%nat [true;true;true;true] (Sph (V3 (-2) (3/2) 0) (25004 / 10000))) 4) with (OptSt [4;1;2;3]%nat [false;true;true;true] (Sph (V3 (-2) 1 0) (30004 / 10000)), 1%nat); [reflexivity|].
      symmetry. unfold opt_step. cbn [os_sp os_ex os_s]. cbv zeta. change (existsb (Nat.eqb 4) [0;1;2;3]%nat) with false. cbv iota. change (opt_at pts 4) with q4. cbn [srad spos]. unfold q4 at 1. rewrite far_true by lra.
      change (opt_at pts (nth 0 [0;1;2;3]%nat 0%nat)) with q0. change (opt_at pts (nth 1 [0;1;2;3]%nat 0%nat)) with q1. change (opt_at pts (nth 2 [0;1;2;3]%nat 0%nat)) with q2. change (opt_at pts (nth 3 [0;1;2;3]%nat 0%nat)) with q3.
      rewrite g_01234. reflexivity. }
    rewrite S1. rewrite !skip by (reflexivity || Lia.lia).
    assert (S2 : opt_loop 7 pts (OptSt [4;1;2;3]%nat [false;true;true;true] (Sph (V3 (-2) 1 0) (30004 / 10000))) 5 =
      opt_loop 6 pts (OptSt [5;1;2;3]%nat [false;true;true;true] (Sph (V3 1 0 0) (50004 / 10000))) 1).
    { cbn [opt_loop]. change (Nat.ltb 5 (length pts)) with true. cbv iota.
      replace (opt_step pts (OptSt [4;1;2;3]%nat [false;true;true;true] (Sph (V3 (-2) 1 0) (30004 / 10000))) 5) with (OptSt [5;1;2;3]%nat [false;true;true;true] (Sph (V3 1 0 0) (50004 / 10000)), 1%nat); [reflexivity|].
      symmetry. unfold opt_step. cbn [os_sp os_ex os_s]. cbv zeta. change (existsb (Nat.eqb 5) [4;1;2;3]%nat) with false. cbv iota. change (opt_at pts 5) with q5. cbn [srad spos]. unfold q5 at 1. rewrite far_true by lra.
      change (opt_at pts (nth 0 [4;1;2;3]%nat 0%nat)) with q4. change (opt_at pts (nth 1 [4;1;2;3]%nat 0%nat)) with q1. change (opt_at pts (nth 2 [4;1;2;3]%nat 0%nat)) with q2. change (opt_at pts (nth 3 [4;1;2;3]%nat 0%nat)) with q3.
      rewrite g_41235. reflexivity. }
    rewrite S2. rewrite !skip by (reflexivity || Lia.lia). cbn [opt_loop]. change (Nat.ltb 4 (length pts)) with true. cbv iota. unfold opt_step at 1. cbn [os_sp os_ex os_s]. cbv zeta.
    change (existsb (Nat.eqb 4) [5;1;2;3]%nat) with false. cbv iota. change (opt_at pts 4) with q4. cbn [srad spos]. unfold q4 at 1. rewrite far_false by lra.
    reflexivity.
  - intros E. specialize (E q0 (or_introl eq_refl)). unfold in_sphere in E. lra.
Qed.
Print Assumptions C78_array_refuted.
