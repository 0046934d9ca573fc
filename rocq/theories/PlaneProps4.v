(** Property C42: clipping segments, lines and triangles to the positive half-space, over the reals. *)
From Coq Require Import Reals Lra Psatz Bool ZArith List.
From Verif Require Import Num NumR ScalarModel ScalarProofs ScalarProps Vec3Model Vec3Props GeoTypes GeoSpec GeoLemmas AabbSpec AabbModel MatModel MatSpec MatProofs MatProofs2 MatProps
  LineModel LineSpec LineProofs LineProofs2 LineProps RotModel RotSpec RotProofs PlaneModel PlaneSpec PlaneProps PlaneProps2 PlaneProps3.
Import ListNotations.
Open Scope R_scope.

(** ** Segments *)
Definition kept (o : option (pt * pt)) (q : pt) : Prop := match o with Some (x, y) => on_segment (Seg x y) q | None => False end.
Lemma height_seg P a b j : height P (plus a (scale j (minus b a))) = height P a + j * (height P b - height P a).
Proof. unfold height. rewrite dot_plus_r, dot_scale_r, dot_minus_r. ring. Qed.
Lemma sub_seg_left (a b : pt) t q : 0 < t <= 1 -> (on_segment (Seg a (plus a (scale t (minus b a)))) q <-> exists j, 0 <= j <= t /\ q = plus a (scale j (minus b a))).
Proof.
  intros T. split.
  - intros (j & J & E). cbn [seg_a seg_b] in E. exists (j * t). split; [nra|]. rewrite E. gunf. apply vec_ext; cbn [vx vy vz]; ring.
  - intros (j & J & ->). exists (j / t). assert (0 < / t) by (apply Rinv_0_lt_compat; lra). split; [split; [apply Rmult_le_pos; lra|apply Rmult_le_reg_r with t; [lra|]; unfold Rdiv; rewrite Rmult_assoc, Rinv_l; lra]|].
    cbn [seg_a seg_b]. gunf. apply vec_ext; cbn [vx vy vz]; field; lra.
Qed.
Lemma sub_seg_right (a b : pt) t q : 0 <= t < 1 -> (on_segment (Seg (plus a (scale t (minus b a))) b) q <-> exists j, t <= j <= 1 /\ q = plus a (scale j (minus b a))).
Proof.
  intros T. split.
  - intros (j & J & E). cbn [seg_a seg_b] in E. exists (t + j * (1 - t)). split; [nra|]. rewrite E. gunf. apply vec_ext; cbn [vx vy vz]; ring.
  - intros (j & J & ->). exists ((j - t) / (1 - t)). assert (0 < / (1 - t)) by (apply Rinv_0_lt_compat; lra). split; [split; [apply Rmult_le_pos; lra|apply Rmult_le_reg_r with (1 - t); [lra|]; unfold Rdiv; rewrite Rmult_assoc, Rinv_l; lra]|].
    cbn [seg_a seg_b]. gunf. apply vec_ext; cbn [vx vy vz]; field; lra.
Qed.
(** Everything kept is on the segment and not below the plane; everything strictly above is kept, unless the segment leaves
    the plane upwards from its first end point. *)
Theorem C42_clip_segment (P : plane R) (a b q : pt) :
  (kept (Plane_Clip P a b) q -> on_segment (Seg a b) q /\ above P q) /\
  (~ (on_plane P a /\ ~ below P b) -> on_segment (Seg a b) q -> above P q -> ~ on_plane P q -> kept (Plane_Clip P a b) q).
Proof.
  assert (AB : forall x, above P x <-> 0 <= height P x) by (intros; unfold above, height; split; lra). assert (BE : forall x, below P x <-> height P x <= 0) by (intros; unfold below, height; split; lra).
  rewrite !AB, BE. rewrite <- !height_zero. unfold Plane_Clip. toG. set (fa := height P a). set (fb := height P b).
  assert (Hc : dot (pnormal P) (minus b a) = fb - fa) by (unfold fa, fb, height; rewrite dot_minus_r; ring).
  assert (Hd : pd P - dot (pnormal P) a = - fa) by (unfold fa, height; ring).
  assert (Out : forall (sgn : forall j, 0 <= j <= 1 -> (fa <= 0 -> fa + j * (fb - fa) <= 0) /\ (0 < fa -> 0 <= fa + j * (fb - fa))),
    (kept (if Rleb fa 0 then None else Some (a, b)) q -> on_segment (Seg a b) q /\ 0 <= height P q) /\
    (on_segment (Seg a b) q -> 0 <= height P q -> height P q <> 0 -> kept (if Rleb fa 0 then None else Some (a, b)) q)).
  { intros sgn. destruct (Rleb_spec fa 0) as [H|H]; cbn [kept]; split; try tauto.
    - intros (j & J & ->) A N. cbn [seg_a seg_b] in *. rewrite height_seg in A, N. fold fa fb in A, N. destruct (sgn j J) as [S _]. specialize (S H). lra.
    - intros S. split; [exact S|]. destruct S as (j & J & ->). cbn [seg_a seg_b]. rewrite height_seg. fold fa fb. destruct (sgn j J) as [_ S]. apply S. lra. }
  change (Plane_SignedDistance P a) with fa. unfold Plane_IsOnPositiveSide. change (Plane_SignedDistance P a) with fa.
  destruct (ILP_cases (pnormal P) (pd P) a (minus b a)) as [(N & ->)|(S & N & ->)]; rewrite ?Hc, ?Hd in *; rsimpl; cbn [negb orb].
  - set (t := - fa / (fb - fa)). assert (Ft : forall j, fa + j * (fb - fa) = (j - t) * (fb - fa)) by (intros; unfold t; field; exact N). assert (F0 : fa = - t * (fb - fa)) by (unfold t; field; exact N).
    destruct (Rleb_spec t 0) as [T0|T0]; [|destruct (Rleb_spec 1 t) as [T1|T1]]; cbn [orb].
    + destruct (Req_dec fa 0) as [Z|Z].
      * destruct (Rle_or_lt fb 0) as [B|B]; [|split; [|intros NB; exfalso; apply NB; split; lra]].
        -- destruct (Out ltac:(intros j J; split; intros; nra)) as [O1 O2]. split; [exact O1|intros _; exact O2].
        -- rewrite (proj2 (Rleb_true fa 0)) by lra. cbn [kept]. tauto.
      * destruct (Out) as [O1 O2]; [|split; [exact O1|intros _; exact O2]]. intros j J. rewrite (Ft j). assert (0 < - t) by (destruct (Req_dec t 0) as [E|E]; [rewrite E in F0; lra|lra]). split; intros; [assert (fb - fa <= 0) by (apply Rnot_lt_le; intros ?; nra)|assert (0 <= fb - fa) by (apply Rnot_lt_le; intros ?; nra)]; nra.
    + destruct (Out) as [O1 O2]; [|split; [exact O1|intros _; exact O2]]. intros j J. rewrite (Ft j). split; intros; [assert (0 <= fb - fa) by (apply Rnot_lt_le; intros ?; nra)|assert (fb - fa <= 0) by (apply Rnot_lt_le; intros ?; nra)]; nra.
    + replace (vmuls (minus b a) t) with (scale t (minus b a)) by (symmetry; apply vmuls_R). destruct (Rleb_spec 0 fa) as [A|A]; cbn [kept].
      * rewrite sub_seg_left by lra. assert (Sg : fb - fa <= 0) by (apply Rnot_lt_le; intros ?; nra). split.
        -- intros (j & J & ->). split; [exists j; split; [lra|reflexivity]|]. rewrite height_seg. fold fa fb. rewrite Ft. nra.
        -- intros _ (j & J & ->) H1 H2. cbn [seg_a seg_b] in *. rewrite height_seg in H1, H2. fold fa fb in H1, H2. rewrite Ft in H1, H2. exists j. split; [|reflexivity]. split; [lra|]. apply Rnot_lt_le. intros ?. nra.
      * rewrite sub_seg_right by lra. assert (Sg : 0 <= fb - fa) by (apply Rnot_lt_le; intros ?; nra). split.
        -- intros (j & J & ->). split; [exists j; split; [lra|reflexivity]|]. rewrite height_seg. fold fa fb. rewrite Ft. nra.
        -- intros _ (j & J & ->) H1 H2. cbn [seg_a seg_b] in *. rewrite height_seg in H1, H2. fold fa fb in H1, H2. rewrite Ft in H1, H2. exists j. split; [|reflexivity]. split; [|lra]. apply Rnot_lt_le. intros ?. nra.
  - rewrite (proj2 (Rleb_true 0 0)) by lra. rewrite orb_true_r. cbn [orb]. destruct (Out) as [O1 O2]; [|split; [exact O1|intros _; exact O2]]. intros j J. destruct N as [N|N]; [rewrite N; split; intros; lra|].
    assert (Z : fb - fa <> 0). { intros Z. rewrite Z in N. unfold Rdiv in N. rewrite Rinv_0, Rmult_0_r, Rabs_R0 in N. lra. }
    assert (B : 10000 * Rabs (fb - fa) <= Rabs fa). { unfold Rdiv in N. rewrite Rabs_mult, Rabs_Ropp in N. rewrite Rabs_inv in N. apply Rmult_le_compat_r with (r := Rabs (fb - fa)) in N; [|apply Rabs_pos]. rewrite Rmult_assoc, Rinv_l in N by (now apply Rabs_no_R0). lra. }
    assert (B2 : Rabs (fb - fa) <= Rabs fa) by (pose proof (Rabs_pos (fb - fa)); lra). revert B2. unfold Rabs. destruct Rcase_abs, Rcase_abs; intros; split; intros; nra.
Qed.
Print Assumptions C42_clip_segment.
Theorem C42_clip_segment_from_plane_refuted : exists (P : plane R) (a b : pt), unitv (pnormal P) /\ on_plane P a /\ (forall q, on_segment (Seg a b) q -> above P q) /\ Plane_Clip P a b = None.
Proof.
  exists (Pln (V3 0 0 1) 0), (V3 0 0 0), (V3 0 0 1). split; [unfold unitv, dot; cbn; lra|]. split; [unfold on_plane, dot; cbn; lra|]. split.
  - intros q (j & J & ->). unfold above, dot, plus, scale, minus. cbn. lra.
  - unfold Plane_Clip. toG. rewrite ILP. cbn [pnormal pd]. unfold dot, minus. cbn [vx vy vz]. rewrite (proj2 (Rltb_true (1 / 10000) (Rabs _))) by (rewrite Rabs_right; lra). change (@Plane_SignedDistance R Num_R) with height. unfold height, dot. cbn [vx vy vz pnormal pd]. rsimpl. cbn [negb orb].
    rewrite (proj2 (Rleb_true _ 0)) by lra. cbn [orb]. rewrite (proj2 (Rleb_true _ 0)) by lra. reflexivity.
Qed.
Print Assumptions C42_clip_segment_from_plane_refuted.
Example C42_clip_segment_witness : let a := V3 0 0 0 in let b := V3 5 0 5 in ~ (on_plane w_plane a /\ ~ below w_plane b) /\ on_segment (Seg a b) (V3 4 0 4) /\ above w_plane (V3 4 0 4) /\ ~ on_plane w_plane (V3 4 0 4).
Proof.
  cbn zeta. split; [intros [H _]; revert H; unfold on_plane, w_plane, dot; cbn; lra|]. split; [exists (4 / 5); split; [lra|]; unfold plus, scale, minus; cbn; apply vec_ext; cbn; lra|]. unfold above, on_plane, w_plane, dot. cbn. split; lra.
Qed.

(** ** Lines *)
Definition kept_line (l : line R) (o : line_clip R) (q : pt) : Prop := match o with ClipNone => False | ClipRay r => on_ray r q | ClipAll => on_line l q end.
(** A line not nearly parallel to the plane is cut to the ray above it; one parallel to it and 1e-3 away is kept or dropped. *)
Theorem C42_clip_line (P : plane R) (l : line R) :
  1 / 10000 < Rabs (dot (pnormal P) (ldir l)) \/ (dot (pnormal P) (ldir l) = 0 /\ 1 / 1000 <= Rabs (height P (lpos l))) ->
  forall q, kept_line l (Plane_ClipLine P l) q <-> on_line l q /\ above P q.
Proof.
  intros H q. assert (AB : forall x, above P x <-> 0 <= height P x) by (intros; unfold above, height; split; lra). rewrite AB. unfold Plane_ClipLine. rewrite ILP. toG.
  set (c := dot (pnormal P) (ldir l)) in *. set (h := height P (lpos l)) in *. assert (Hd : pd P - dot (pnormal P) (lpos l) = - h) by (unfold h, height; ring). rewrite Hd. assert (HL : forall t, height P (along (lpos l) (ldir l) t) = h + t * c) by (intros; apply height_along).
  destruct H as [H|[Z H]].
  - rewrite (proj2 (Rltb_true _ _) H). assert (Z : c <> 0) by (intros Z; rewrite Z, Rabs_R0 in H; lra). cbn [negb kept_line]. rsimpl. rewrite (dot_comm (ldir l)). fold c. set (t := - h / c). rewrite vmuls_R.
    assert (Ht : forall k, h + k * c = (k - t) * c) by (intros; unfold t; field; exact Z).
    destruct (Rleb_spec 0 c) as [C|C]; split.
    + intros (k & K & ->). cbn [rpos rdir]. split; [exists (t + k); gunf; apply vec_ext; cbn [vx vy vz]; ring|]. replace (along (plus (lpos l) (scale t (ldir l))) (ldir l) k) with (along (lpos l) (ldir l) (t + k)) by (gunf; apply vec_ext; cbn [vx vy vz]; ring). rewrite HL, Ht. nra.
    + intros [(k & ->) A]. rewrite HL, Ht in A. exists (k - t). split; [apply Rnot_lt_le; intros ?; nra|]. cbn [rpos rdir]. gunf. apply vec_ext; cbn [vx vy vz]; ring.
    + intros (k & K & ->). cbn [rpos rdir]. rewrite vneg_R. split; [exists (t - k); gunf; apply vec_ext; cbn [vx vy vz]; ring|]. replace (along (plus (lpos l) (scale t (ldir l))) (scale (-1) (ldir l)) k) with (along (lpos l) (ldir l) (t - k)) by (gunf; apply vec_ext; cbn [vx vy vz]; ring). rewrite HL, Ht. nra.
    + intros [(k & ->) A]. rewrite HL, Ht in A. exists (t - k). split; [apply Rnot_lt_le; intros ?; nra|]. cbn [rpos rdir]. rewrite vneg_R. gunf. apply vec_ext; cbn [vx vy vz]; ring.
  - rewrite (proj2 (Rltb_false (1 / 10000) (Rabs c))) by (rewrite Z, Rabs_R0; lra). destruct (Reqb_spec c 0) as [_|N]; [|contradiction]. cbn [negb andb]. fold h. change (dot (pnormal P) (lpos l) - pd P) with h. rewrite (proj2 (Rltb_false _ _) H). cbn [negb]. change (Plane_SignedDistance P (lpos l)) with h. rsimpl.
    assert (Nz : h <> 0) by (intros E; rewrite E, Rabs_R0 in H; lra). destruct (Rleb_spec h 0) as [A|A]; cbn [kept_line]; split; try tauto.
    + intros [(k & ->) B]. rewrite HL, Z in B. lra.
    + intros (k & ->). split; [now exists k|]. rewrite HL, Z. lra.
Qed.
Print Assumptions C42_clip_line.
(** A line inside the plane is cut to a ray although all of it satisfies the documented condition. *)
Theorem C42_clip_line_in_plane_refuted : exists (P : plane R) (l : line R) (q : pt), unitv (pnormal P) /\ unitv (ldir l) /\ on_line l q /\ (forall p, on_line l p -> on_plane P p) /\ ~ kept_line l (Plane_ClipLine P l) q.
Proof.
  exists (Pln (V3 0 0 1) 0), (Ln (V3 0 0 0) (V3 1 0 0)), (V3 (-1) 0 0). split; [unfold unitv, dot; cbn; lra|]. split; [unfold unitv, dot; cbn; lra|]. split; [exists (-1); gunf; apply vec_ext; cbn; lra|]. split; [intros p (k & ->); unfold on_plane; gunf; cbn; lra|].
  unfold Plane_ClipLine. rewrite ILP. toG. cbn [pnormal pd lpos ldir]. unfold dot. cbn [vx vy vz]. replace (0 * 1 + 0 * 0 + 1 * 0) with 0 by ring. replace (0 * 0 + 0 * 0 + 1 * 0) with 0 by ring. rewrite Rabs_R0, (proj2 (Rltb_false (1 / 10000) 0)) by lra. destruct (Reqb_spec 0 0) as [_|N]; [|lra]. cbn [negb andb].
  rewrite Rminus_0_r, Rabs_R0, (proj2 (Rltb_true 0 (1 / 1000))) by lra. cbn [negb kept_line]. rsimpl. replace (1 * 0 + 0 * 0 + 0 * 1) with 0 by ring. rewrite (proj2 (Rleb_true 0 0)) by lra. rewrite vmuls_R. intros (k & K & E). apply (f_equal vx) in E. unfold along, plus, scale in E. cbn in E. lra.
Qed.
Print Assumptions C42_clip_line_in_plane_refuted.
Example C42_clip_line_witness : 1 / 10000 < Rabs (dot (pnormal w_plane) (V3 1 0 0)) /\ dot (pnormal w_plane) (V3 0 1 0) = 0 /\ 1 / 1000 <= Rabs (height w_plane (V3 0 0 0)).
Proof. unfold height, dot, w_plane. cbn. split; [rewrite Rabs_right; lra|]. split; [lra|]. rewrite Rabs_left; lra. Qed.

(** ** Triangles *)
Lemma tri_convex (A : pt -> Prop) t : convex_set A -> A (tri_a t) -> A (tri_b t) -> A (tri_c t) -> forall q, in_triangle t q -> A q.
Proof.
  intros C Aa Ab Ac q (u & v & w & U & V & W & S & ->). destruct (Req_dec (v + w) 0) as [Z|Z].
  - assert (v = 0) by lra. assert (w = 0) by lra. subst. replace (plus _ _) with (tri_a t); [exact Aa|]. replace u with 1 by lra. gunf. apply vec_ext; cbn [vx vy vz]; ring.
  - assert (K : 0 <= w / (v + w) <= 1). { assert (0 < / (v + w)) by (apply Rinv_0_lt_compat; lra). split; [apply Rmult_le_pos; lra|]. apply Rmult_le_reg_r with (v + w); [lra|]. unfold Rdiv. rewrite Rmult_assoc, Rinv_l; lra. }
    pose proof (C _ _ _ Ab Ac K) as M. set (m := plus (tri_b t) _) in M. pose proof (C _ _ (v + w) Aa M ltac:(lra)) as N.
    replace (plus (scale u (tri_a t)) (plus (scale v (tri_b t)) (scale w (tri_c t)))) with (plus (tri_a t) (scale (v + w) (minus m (tri_a t)))); [exact N|]. unfold m. replace u with (1 - v - w) by lra. gunf. apply vec_ext; cbn [vx vy vz]; field; exact Z.
Qed.
Definition rot (t : triangle R) : triangle R := Tri (tri_b t) (tri_c t) (tri_a t).
Lemma rot_in t q : in_triangle (rot t) q <-> in_triangle t q.
Proof.
  split; intros (u & v & w & U & V & W & S & ->); [exists w, u, v|exists v, w, u]; cbn [rot tri_a tri_b tri_c]; repeat split; try assumption; try lra; gunf; apply vec_ext; cbn [vx vy vz]; ring.
Qed.
Definition pos_part P t q := in_triangle t q /\ 0 <= height P q.
Lemma convex_pos P t : convex_set (pos_part P t).
Proof. intros x y k [X X'] [Y Y'] K. split; [now apply convex_tri|]. rewrite height_seg. nra. Qed.
Lemma edge_in t : convex_set (in_triangle t). Proof. apply convex_tri. Qed.
Lemma div_le1 a b : 0 <= a -> a <= b -> 0 < b -> 0 <= a / b <= 1.
Proof. intros A B C. assert (0 < / b) by (now apply Rinv_0_lt_compat). split; [apply Rmult_le_pos; lra|]. apply Rmult_le_reg_r with b; [exact C|]. unfold Rdiv. rewrite Rmult_assoc, Rinv_l; lra. Qed.
(** One corner above. *)
Lemma clip_one P t : let fa := height P (tri_a t) in let fb := height P (tri_b t) in let fc := height P (tri_c t) in 0 <= fa -> fb < 0 -> fc < 0 ->
  let b' := plus (tri_a t) (scale (fa / (fa - fb)) (minus (tri_b t) (tri_a t))) in let c' := plus (tri_a t) (scale (fa / (fa - fc)) (minus (tri_c t) (tri_a t))) in
  forall q, in_triangle (Tri (tri_a t) b' c') q <-> pos_part P t q.
Proof.
  intros fa fb fc A B C b' c' q. destruct (tri_corners t) as (Ta & Tb & Tc).
  assert (Kb : 0 <= fa / (fa - fb) <= 1) by (apply div_le1; lra). assert (Kc : 0 <= fa / (fa - fc) <= 1) by (apply div_le1; lra). split.
  - apply (tri_convex (pos_part P t) (Tri (tri_a t) b' c')); [apply convex_pos|..]; cbn [tri_a tri_b tri_c].
    + now split.
    + split; [now apply convex_tri|]. unfold b'. rewrite height_seg. fold fa fb. apply Req_le. field. lra.
    + split; [now apply convex_tri|]. unfold c'. rewrite height_seg. fold fa fc. apply Req_le. field. lra.
  - intros [(u & v & w & U & V & W & S & ->) H]. rewrite height_tri in H by exact S. fold fa fb fc in H. destruct (Req_dec fa 0) as [Z|Z].
    + assert (v = 0 /\ w = 0) as [-> ->] by (rewrite Z in H; split; nra). exists 1, 0, 0. cbn [tri_a tri_b tri_c]. repeat split; try lra. replace u with 1 by lra. gunf. apply vec_ext; cbn [vx vy vz]; ring.
    + assert (0 < fa) by lra. assert (0 < / fa) by (now apply Rinv_0_lt_compat). exists (1 - v * (fa - fb) / fa - w * (fa - fc) / fa), (v * (fa - fb) / fa), (w * (fa - fc) / fa). cbn [tri_a tri_b tri_c]. split; [|split; [|split; [|split]]].
      * apply Rmult_le_reg_r with fa; [lra|]. replace ((1 - v * (fa - fb) / fa - w * (fa - fc) / fa) * fa) with (fa - v * (fa - fb) - w * (fa - fc)) by (field; lra). replace u with (1 - v - w) in H by lra. lra.
      * apply Rmult_le_pos; [apply Rmult_le_pos|]; lra.
      * apply Rmult_le_pos; [apply Rmult_le_pos|]; lra.
      * ring.
      * unfold b', c'. replace u with (1 - v - w) by lra. gunf. apply vec_ext; cbn [vx vy vz]; field; lra.
Qed.
(** Two corners above: the quadrilateral left is covered by the two triangles. *)
Lemma clip_two P t : let fa := height P (tri_a t) in let fb := height P (tri_b t) in let fc := height P (tri_c t) in fa < 0 -> 0 <= fb -> 0 <= fc ->
  let ab := plus (tri_a t) (scale (- fa / (fb - fa)) (minus (tri_b t) (tri_a t))) in let ac := plus (tri_a t) (scale (- fa / (fc - fa)) (minus (tri_c t) (tri_a t))) in
  forall q, in_triangle (Tri ab (tri_b t) (tri_c t)) q \/ in_triangle (Tri (tri_c t) ac ab) q <-> pos_part P t q.
Proof.
  intros fa fb fc A B C ab ac q. destruct (tri_corners t) as (Ta & Tb & Tc). set (k := - fa / (fb - fa)). set (k' := - fa / (fc - fa)).
  assert (Kb : 0 <= k <= 1) by (apply div_le1; lra). assert (Kc : 0 <= k' <= 1) by (apply div_le1; lra). fold k in ab. fold k' in ac.
  assert (Pab : pos_part P t ab). { split; [now apply convex_tri|]. unfold ab. rewrite height_seg. fold fa fb. apply Req_le. unfold k. field. lra. }
  assert (Pac : pos_part P t ac). { split; [now apply convex_tri|]. unfold ac. rewrite height_seg. fold fa fc. apply Req_le. unfold k'. field. lra. }
  split.
  - intros [H|H]; revert H; (apply tri_convex; [apply convex_pos|..]); cbn [tri_a tri_b tri_c]; try assumption; now split.
  - intros [(u & v & w & U & V & W & S & ->) H]. rewrite height_tri in H by exact S. fold fa fb fc in H.
    assert (K0 : 0 < k) by (unfold k; apply Rmult_lt_0_compat; [lra|apply Rinv_0_lt_compat; lra]). assert (K0' : 0 < k') by (unfold k'; apply Rmult_lt_0_compat; [lra|apply Rinv_0_lt_compat; lra]).
    (* in terms of k, k': u <= v (1-k)/k + w (1-k')/k' *)
    assert (H2 : u * k * k' <= v * (1 - k) * k' + w * (1 - k') * k).
    { assert (Ek : k * (fb - fa) = - fa) by (unfold k; field; lra). assert (Ek' : k' * (fc - fa) = - fa) by (unfold k'; field; lra).
      apply Rmult_le_reg_r with (- fa); [lra|]. assert (E1 : (1 - k) * (- fa) = k * fb) by nra. assert (E2 : (1 - k') * (- fa) = k' * fc) by nra.
      replace ((v * (1 - k) * k' + w * (1 - k') * k) * - fa) with (v * k' * ((1 - k) * - fa) + w * k * ((1 - k') * - fa)) by ring. rewrite E1, E2.
      assert (0 <= k * k' * (u * fa + v * fb + w * fc)) by (apply Rmult_le_pos; [nra|exact H]). lra. }
    clearbody k k'. clear H Pab Pac A B C.
    assert (first : forall a' b', 0 <= a' -> 0 <= b' -> u = a' * (1 - k) -> v = a' * k + b' -> in_triangle (Tri ab (tri_b t) (tri_c t)) (plus (scale u (tri_a t)) (plus (scale v (tri_b t)) (scale w (tri_c t))))).
    { intros a' b' A' B' Eu Ev. exists a', b', w. cbn [tri_a tri_b tri_c]. repeat split; try assumption; [rewrite Eu, Ev in S; lra|]. rewrite Eu, Ev. unfold ab. gunf. apply vec_ext; cbn [vx vy vz]; ring. }
    destruct (Req_dec u 0) as [Z|Z]; [left; apply (first 0 v); lra|]. destruct (Rle_or_lt (u * k) (v * (1 - k))) as [G|G].
    + left. assert (k < 1) by (assert (0 < u * k) by (apply Rmult_lt_0_compat; lra); destruct (Req_dec k 1) as [E|E]; [rewrite E in *; lra|lra]). assert (0 < / (1 - k)) by (apply Rinv_0_lt_compat; lra).
      apply (first (u / (1 - k)) (v - u * k / (1 - k))); [apply Rmult_le_pos; lra| |field; lra|field; lra].
      apply Rmult_le_reg_r with (1 - k); [lra|]. replace ((v - u * k / (1 - k)) * (1 - k)) with (v * (1 - k) - u * k) by (field; lra). lra.
    + right. assert (K1 : k' < 1). { destruct (Req_dec k' 1) as [E|E]; [rewrite E in *; exfalso; lra|lra]. } assert (0 < / (1 - k')) by (apply Rinv_0_lt_compat; lra). assert (0 < / k) by (now apply Rinv_0_lt_compat).
      set (g := v / k). assert (Eg : v = g * k) by (unfold g; field; lra). assert (G0 : 0 <= g) by (unfold g; apply Rmult_le_pos; lra). set (b' := (u - g * (1 - k)) / (1 - k')).
      assert (Eb : u = b' * (1 - k') + g * (1 - k)) by (unfold b'; field; lra). assert (B0 : 0 <= b'). { unfold b'. apply Rmult_le_pos; [|lra]. apply Rmult_le_reg_r with k; [lra|]. replace ((u - g * (1 - k)) * k) with (u * k - (g * k) * (1 - k)) by ring. rewrite <- Eg. lra. }
      clearbody g b'. exists (w - b' * k'), b', g. cbn [tri_a tri_b tri_c]. split; [|split; [exact B0|split; [exact G0|split]]].
      * rewrite Eg, Eb in H2. apply Rmult_le_reg_r with (k * (1 - k')); [apply Rmult_lt_0_compat; lra|]. nra.
      * rewrite Eg, Eb in S. lra.
      * rewrite Eg, Eb. unfold ab, ac. gunf. apply vec_ext; cbn [vx vy vz]; ring.
Qed.
Definition edge_ok (a b : pt) : Prop := 1 / 1000000 < dist a b < 10000.
Definition edges_ok (t : triangle R) : Prop := edge_ok (tri_a t) (tri_b t) /\ edge_ok (tri_b t) (tri_c t) /\ edge_ok (tri_c t) (tri_a t).
Lemma edge_sym a b : edge_ok a b -> edge_ok b a. Proof. unfold edge_ok. now rewrite dist_sym. Qed.
Lemma edges_rot t : edges_ok t -> edges_ok (rot t). Proof. intros (A & B & C). split; [exact B|]. split; [exact C|exact A]. Qed.
Lemma ISeg_cut P (a b : pt) : edge_ok a b -> height P a <> height P b -> 0 <= - height P a / (height P b - height P a) <= 1 -> Plane_IntersectsSeg P (Seg a b) = (true, - height P a / (height P b - height P a)).
Proof.
  intros [L1 L2] N K. assert (E : dot (pnormal P) (sdir (Seg a b)) = height P b - height P a) by (unfold sdir, height; cbn [seg_a seg_b]; rewrite dot_minus_r; ring).
  destruct (ISeg P (Seg a b)) as [H _]; [exact L1|rewrite E; lra|]. cbn [seg_a seg_b] in H. rewrite E in H. replace (pd P - dot (pnormal P) a) with (- height P a) in H by (unfold height; ring). now apply H.
Qed.
(** The triangles produced cover exactly the part of the triangle on or above the plane. *)
Theorem C42_clip_triangle (P : plane R) (t : triangle R) : edges_ok t -> forall q, (exists t', In t' (Plane_ClipTri P t) /\ in_triangle t' q) <-> in_triangle t q /\ above P q.
Proof.
  intros E q. assert (AB : above P q <-> 0 <= height P q) by (unfold above, height; split; lra). rewrite AB. fold (pos_part P t q). clear AB.
  unfold Plane_ClipTri, Plane_IsOnPositiveSide. change (@Plane_SignedDistance R Num_R) with height. toG. rsimpl.
  assert (One : forall t1, edges_ok t1 -> (forall x, in_triangle t1 x <-> in_triangle t x) -> 0 <= height P (tri_a t1) -> height P (tri_b t1) < 0 -> height P (tri_c t1) < 0 ->
    ((exists t', In t' (let '(_, k) := Plane_IntersectsSeg P (Seg (tri_a t1) (tri_b t1)) in
      let b' := plus (tri_a t1) (vmuls (minus (tri_b t1) (tri_a t1)) k) in
      let '(_, k') := Plane_IntersectsSeg P (Seg (tri_a t1) (tri_c t1)) in
      [Tri (tri_a t1) b' (plus (tri_a t1) (vmuls (minus (tri_c t1) (tri_a t1)) k'))]) /\ in_triangle t' q) <-> pos_part P t q)).
  { intros t1 (E1 & E2 & E3) Eq A B C. apply edge_sym in E3.
    assert (Q : forall fb, fb < 0 -> - height P (tri_a t1) / (fb - height P (tri_a t1)) = height P (tri_a t1) / (height P (tri_a t1) - fb)) by (intros; field; lra).
    rewrite (ISeg_cut P _ _ E1), (ISeg_cut P _ _ E3); [|lra|rewrite Q by lra; apply div_le1; lra|lra|rewrite Q by lra; apply div_le1; lra]. rewrite !Q by assumption. rewrite !vmuls_R.
    pose proof (clip_one P t1 A B C q) as H. cbv zeta in H. unfold pos_part in *. rewrite Eq in H. rewrite <- H. cbn [In]. split; [intros (t' & [<-|[]] & I); exact I|]. intros I. eexists. split; [now left|exact I]. }
  assert (Two : forall t1, edges_ok t1 -> (forall x, in_triangle t1 x <-> in_triangle t x) -> height P (tri_a t1) < 0 -> 0 <= height P (tri_b t1) -> 0 <= height P (tri_c t1) ->
    ((exists t', In t' (let '(_, k) := Plane_IntersectsSeg P (Seg (tri_a t1) (tri_b t1)) in
      let ab := plus (tri_a t1) (vmuls (minus (tri_b t1) (tri_a t1)) k) in
      let '(_, r) := Plane_IntersectsSeg P (Seg (tri_a t1) (tri_c t1)) in
      let ac := plus (tri_a t1) (vmuls (minus (tri_c t1) (tri_a t1)) r) in
      [Tri ab (tri_b t1) (tri_c t1); Tri (tri_c t1) ac ab]) /\ in_triangle t' q) <-> pos_part P t q)).
  { intros t1 (E1 & E2 & E3) Eq A B C. apply edge_sym in E3.
    rewrite (ISeg_cut P _ _ E1), (ISeg_cut P _ _ E3); [|lra|apply div_le1; lra|lra|apply div_le1; lra]. rewrite !vmuls_R.
    pose proof (clip_two P t1 A B C q) as H. cbv zeta in H. unfold pos_part in *. rewrite Eq in H. rewrite <- H. cbn [In]. split; [intros (t' & [<-|[<-|[]]] & I); [now left|now right]|]. intros [I|I]; eexists; (split; [|exact I]); [now left|right; now left]. }
  destruct (tri_corners t) as (Ta & Tb & Tc). pose proof (rot_in t) as R1. assert (R2 : forall x, in_triangle (rot (rot t)) x <-> in_triangle t x) by (intros x; now rewrite !rot_in).
  pose proof (edges_rot t E) as Er. pose proof (edges_rot _ Er) as Err.
  destruct (Rleb_spec 0 (height P (tri_a t))) as [A|A]; destruct (Rleb_spec 0 (height P (tri_b t))) as [B|B]; destruct (Rleb_spec 0 (height P (tri_c t))) as [C|C]; cbn [Z.add Z.eqb Pos.add Pos.eqb Pos.succ negb]; cbv iota.
  - split; [|intros [I H]; exists t; split; [now left|exact I]]. intros (t' & [<-|[]] & I). split; [exact I|]. now apply (tri_ge P t).
  - apply (Two (rot (rot t))); [exact Err|exact R2|..]; cbn [rot tri_a tri_b tri_c]; lra.
  - apply (Two (rot t)); [exact Er|exact R1|..]; cbn [rot tri_a tri_b tri_c]; lra.
  - apply (One t); [exact E|tauto|..]; lra.
  - apply (Two t); [exact E|tauto|..]; lra.
  - apply (One (rot t)); [exact Er|exact R1|..]; cbn [rot tri_a tri_b tri_c]; lra.
  - apply (One (rot (rot t))); [exact Err|exact R2|..]; cbn [rot tri_a tri_b tri_c]; lra.
  - split; [intros (t' & [] & _)|]. intros [I H]. exfalso.
    set (m := Rmax (height P (tri_a t)) (Rmax (height P (tri_b t)) (height P (tri_c t)))). assert (M : m < 0) by (unfold m, Rmax; destruct Rle_dec; try destruct Rle_dec; lra).
    assert (height P q <= m); [|lra]. apply (tri_le P t); [| | |exact I]; unfold m, Rmax; destruct Rle_dec; try destruct Rle_dec; lra.
Qed.
Print Assumptions C42_clip_triangle.
Example C42_clip_triangle_witness : edges_ok (Tri (V3 0 0 0) (V3 3 0 0) (V3 0 0 4)) /\ in_triangle (Tri (V3 0 0 0) (V3 3 0 0) (V3 0 0 4)) (V3 0 0 3) /\ above w_plane (V3 0 0 3) /\ ~ above w_plane (V3 0 0 0).
Proof.
  split; [|split].
  - unfold edges_ok, edge_ok. cbn [tri_a tri_b tri_c].
    assert (D : forall x y z k, 0 <= k -> x * x + y * y + z * z = k * k -> norm (V3 x y z) = k) by (intros x y z k K H; unfold norm, dot; cbn [vx vy vz]; rewrite H; now apply sqrt_square).
    unfold dist, minus. cbn [vx vy vz]. rewrite (D _ _ _ 3), (D _ _ _ 5), (D _ _ _ 4) by lra. lra.
  - exists (1 / 4), 0, (3 / 4). cbn [tri_a tri_b tri_c]. repeat split; try lra. gunf. apply vec_ext; cbn [vx vy vz]; lra.
  - unfold above, dot, w_plane. cbn. split; lra.
Qed.
