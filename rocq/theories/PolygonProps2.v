(** Properties C90 (convexity test, edge normals) and C91 (point containment) of polygons, over the reals. *)
From Coq Require Import Reals List Bool Lra Lia Arith Classical.
From Verif Require Import Num NumR ScalarModel ScalarProofs Vec3Model Vec3Props Vec2Model Vec2Spec GeoTypes GeoSpec GeoLemmas MatModel MatProofs MatProofs2 LineModel LineProofs LineProps PlaneModel PlaneSpec PlaneProps Vec2Props HullSpec HullProofs HullProps2 PlaneTestProofs PolygonModel PolygonSpec PolygonProofs PolygonProps.
Import ListNotations.
Open Scope R_scope.
Ltac Zify.zify_post_hook ::= idtac.

(** Coordinates relative to a point q along e, mirrored if s = -1. *)
Definition coords (s : R) (e q v : p2) : p2 := V2 (dt (mi v q) e) (s * area2 e (mi v q)).
Section Coords.
  Context (s : R) (e : p2) (q : p2) (S1 : s * s = 1) (UE : dt e e = 1).
  Lemma coords_turn a b c : turn (coords s e q a) (coords s e q b) (coords s e q c) = s * turn a b c.
  Proof. unfold turn, coords, area2, mi, dt in *. cbn [x2 y2] in *. transitivity (s * (x2 e * x2 e + y2 e * y2 e) * ((x2 b - x2 a) * (y2 c - y2 a) - (y2 b - y2 a) * (x2 c - x2 a))); [ring|rewrite UE; ring]. Qed.
  Lemma coords_zero : coords s e q q = o2. Proof. unfold coords, o2, dt, area2, mi. cbn [x2 y2]. f_equal; ring. Qed.
  Lemma coords_o a b : turn (coords s e q a) (coords s e q b) o2 = s * turn a b q. Proof. rewrite <- coords_zero. apply coords_turn. Qed.
  Lemma coords_dst a b : dst (coords s e q a) (coords s e q b) = dst a b.
  Proof.
    unfold dst, nrm. f_equal. unfold coords, dt, area2, mi in *. cbn [x2 y2] in *. set (u := x2 a - x2 q). set (v := y2 a - y2 q). set (u' := x2 b - x2 q). set (v' := y2 b - y2 q). replace (x2 a - x2 b) with (u - u') by (unfold u, u'; ring). replace (y2 a - y2 b) with (v - v') by (unfold v, v'; ring).
    transitivity ((x2 e * x2 e + s * s * (y2 e * y2 e)) * ((u - u') * (u - u')) + (s * s * (x2 e * x2 e) + y2 e * y2 e) * ((v - v') * (v - v')) + 2 * (1 - s * s) * (x2 e * y2 e * ((u - u') * (v - v')))); [ring|]. rewrite S1, !Rmult_1_l, UE. ring.
  Qed.
  Lemma coords_inj a b : coords s e q a = coords s e q b -> a = b.
  Proof. intros E. apply dst_zero. rewrite <- coords_dst, E. now apply dst_zero. Qed.
  Definition uncoords (z : p2) : p2 := pl q (pl (sc (x2 z) e) (sc (s * y2 z) (perp e))).
  Lemma uncoords_coords v : uncoords (coords s e q v) = v.
  Proof.
    unfold uncoords, coords. apply v2_ext; unfold pl, sc, perp, area2, dt, mi in *; cbn [x2 y2] in *.
    - transitivity (x2 q + ((x2 e * x2 e + s * s * (y2 e * y2 e)) * (x2 v - x2 q) + (1 - s * s) * (x2 e * y2 e * (y2 v - y2 q)))); [ring|]. rewrite S1, !Rmult_1_l, UE. ring.
    - transitivity (y2 q + ((s * s * (x2 e * x2 e) + y2 e * y2 e) * (y2 v - y2 q) + (1 - s * s) * (x2 e * y2 e * (x2 v - x2 q)))); [ring|]. rewrite S1, !Rmult_1_l, UE. ring.
  Qed.
  Lemma hull_back vs z : in_hull2 (map (coords s e q) vs) z -> in_hull2 vs (uncoords z).
  Proof.
    intros H A CA AV. apply (H (fun z => A (uncoords z))).
    - intros a b t T HA HB. replace (uncoords (pl a (sc t (mi b a)))) with (pl (uncoords a) (sc t (mi (uncoords b) (uncoords a)))) by (unfold uncoords, pl, sc, mi, perp; apply v2_ext; cbn [x2 y2]; ring). now apply CA.
    - intros v I. apply in_map_iff in I as (w & <- & I). rewrite uncoords_coords. now apply AV.
  Qed.
  Lemma uncoords_o : uncoords o2 = q. Proof. rewrite <- coords_zero. apply uncoords_coords. Qed.
  Lemma uncoords_dst z w : dst (uncoords z) (uncoords w) = dst z w.
  Proof.
    unfold dst, nrm. f_equal. unfold uncoords, dt, pl, sc, perp, mi in *. cbn [x2 y2] in *.
    transitivity ((x2 e * x2 e + y2 e * y2 e) * ((x2 z - x2 w) * (x2 z - x2 w)) + s * s * (x2 e * x2 e + y2 e * y2 e) * ((y2 z - y2 w) * (y2 z - y2 w))); [ring|]. rewrite S1, UE. ring.
  Qed.
End Coords.
Lemma path_map (g : p2 -> p2) vs : forall p, path (g p) (map g vs) = map (fun ab => (g (fst ab), g (snd ab))) (path p vs).
Proof. induction vs as [|v vs IH]; intros p; [reflexivity|]. cbn. now rewrite IH. Qed.
Lemma edges_map (g : p2 -> p2) vs : polygon_edges (map g vs) = map (fun ab => (g (fst ab), g (snd ab))) (polygon_edges vs).
Proof. destruct vs as [|v vs]; [reflexivity|]. cbn [map polygon_edges]. change (g v :: map g vs) with (map g (v :: vs)). rewrite last_map. apply path_map. Qed.
Lemma ccw_map (g : p2 -> p2) vs : (forall a b, g a = g b -> a = b) -> (forall a b c, turn (g a) (g b) (g c) = turn a b c) -> ccw_polygon vs -> ccw_polygon (map g vs).
Proof.
  intros INJ T (ND & C & L). split; [|split].
  - apply FinFun.Injective_map_NoDup; [exact INJ|exact ND].
  - intros a b c I J. rewrite edges_map in I, J. apply in_map_iff in I as ((a' & b') & E & I). apply in_map_iff in J as ((b'' & c') & F & J). cbn in E, F. injection E as <- <-. injection F as F <-. apply INJ in F. subst b''. rewrite T. now apply C.
  - intros a b v I J. rewrite edges_map in I. apply in_map_iff in I as ((a' & b') & E & I). apply in_map_iff in J as (v' & <- & J). cbn in E. injection E as <- <-. rewrite T. now apply L.
Qed.
(** The convexity test. *)
Lemma ccw_R a b c : OrientedCCW a b c = Rleb 0 (turn a b c).
Proof. apply eq_true_iff_eq. rewrite Rleb_true. unfold OrientedCCW, turn, area2, mi. cbn [x2 y2]. rsimpl. rewrite Rleb_true. split; intros; lra. Qed.
Lemma convexFrom_R vs : forall a b, convexFrom a b vs = true <-> forall l1 x y z l2, a :: b :: vs = l1 ++ x :: y :: z :: l2 -> 0 <= turn x y z.
Proof.
  induction vs as [|c vs IH]; intros a b.
  - split; [intros _ [|? [|? ?]] x y z l2 E; cbn in E; try discriminate; injection E; intros; destruct l; discriminate|reflexivity].
  - cbn [convexFrom]. rewrite ccw_R. destruct (Rleb_spec 0 (turn a b c)) as [H|H].
    + rewrite IH. split; intros K l1 x y z l2 E.
      * destruct l1 as [|w l1]; cbn in E; [injection E as -> -> -> _; exact H|]. injection E as -> E. now apply (K l1 x y z l2).
      * apply (K (a :: l1) x y z l2). now rewrite E.
    + split; [discriminate|]. intros K. specialize (K [] a b c vs eq_refl). lra.
Qed.
Lemma to2D_R (o U V : pt) (q0 q1 : p2) (rest : list p2) s : let ps := map (embed o U V) (q0 :: q1 :: rest) in let e := sc (/ dst q0 q1) (mi q1 q0) in frame U V ->
  Poly_BasisU ps = dir U V e -> Poly_BasisV ps = dir U V (sc s (perp e)) -> Poly_To2D ps = map (coords s e q0) (q0 :: q1 :: rest).
Proof.
  intros ps e FR BU BV. assert (G : forall l, map (fun p => V2 (dot (minus p (embed o U V q0)) (dir U V e)) (dot (minus p (embed o U V q0)) (dir U V (sc s (perp e))))) (map (embed o U V) l) = map (coords s e q0) l).
  { intros l. rewrite map_map. apply map_ext. intros v. rewrite (emb_minus o U V), !(dir_dot U V FR). unfold coords. f_equal. unfold dt, sc, perp, area2; cbn [x2 y2]; ring. }
  rewrite <- G. fold ps. rewrite <- BU, <- BV. reflexivity.
Qed.
(** IsConvex looks at the corners only, in the orientation of NormalCCW: it holds exactly if no corner turns right. *)
Theorem C90_convex (o U V : pt) (q0 q1 : p2) (rest : list p2) : let qs := q0 :: q1 :: rest in frame U V -> spans qs -> eps6 < dst q0 q1 -> (4 <= length qs)%nat ->
  exists s, (s = 1 \/ s = -1) /\ Poly_NormalCCW (map (embed o U V) qs) = Some (scale s (cross U V)) /\ (ccw_polygon qs -> Poly_IsConvex (map (embed o U V) qs) = true) /\
  (NoDup qs -> (Poly_IsConvex (map (embed o U V) qs) = true <-> forall a b c, In (a, b) (polygon_edges qs) -> In (b, c) (polygon_edges qs) -> 0 <= s * turn a b c)).
Proof.
  intros qs FR SP L LEN. destruct (setup o U V q0 q1 rest FR SP L) as (s & S & S1 & UE & PL & BU & BV & C1). fold qs in PL, BU, BV, C1. set (e := sc (/ dst q0 q1) (mi q1 q0)) in *. pose proof (to2D_R o U V q0 q1 rest s FR BU BV) as TO. fold qs e in TO. exists s. split; [exact S|]. split; [unfold Poly_NormalCCW; now rewrite PL|].
  assert (G : NoDup qs -> (Poly_IsConvex (map (embed o U V) qs) = true <-> forall a b c, In (a, b) (polygon_edges qs) -> In (b, c) (polygon_edges qs) -> 0 <= s * turn a b c)).
  { intros ND. assert (F : Poly_IsConvex (map (embed o U V) qs) = match rev (map (coords s e q0) qs) with b :: a :: _ => convexFrom a b (map (coords s e q0) qs) | _ => true end) by (rewrite <- TO; unfold qs in *; destruct rest as [|x [|y r]]; [cbn in LEN; lia|cbn in LEN; lia|reflexivity]).
    rewrite F. clear F. clearbody qs. rewrite <- map_rev. destruct (rev qs) as [|b [|a r]] eqn:RV; [apply (f_equal (@length _)) in RV; rewrite rev_length in RV; cbn [length] in RV; lia|apply (f_equal (@length _)) in RV; rewrite rev_length in RV; cbn [length] in RV; lia|]. cbn [map].
    assert (EV : qs = rev r ++ [a; b]) by (rewrite <- (rev_involutive qs), RV; cbn; now rewrite <- app_assoc). assert (EL : forall d, last qs d = b) by (intros d; apply (last_rev qs b (a :: r) d RV)).
    assert (PE : polygon_edges qs = path b qs) by (destruct qs as [|v r']; [discriminate RV|]; cbn [polygon_edges]; now rewrite EL). rewrite PE.
    change (@coords s e q0 a) with (coords s e q0 a). rewrite convexFrom_R.
    assert (BA : In (a, b) (path b qs)) by (apply path_iff; exists (b :: rev r), []; now rewrite EV).
    split.
    - intros H x y z I J. rewrite <- (coords_turn s e q0 UE). apply path_iff in J as (l1 & l2 & E). destruct l1 as [|w l1] using rev_ind.
      + cbn in E. injection E as <- E. assert (x = a) by exact (path_same_end qs b x b a ND I BA). subst x. apply (H [] _ _ _ (map (coords s e q0) l2)). rewrite E. reflexivity.
      + clear IHl1. rewrite <- app_assoc in E. cbn in E. assert (W : In (w, y) (path b qs)) by (apply path_iff; now exists l1, (z :: l2)). assert (x = w) by exact (path_same_end qs b x y w ND I W). subst x.
        apply (H (map (coords s e q0) (a :: l1)) _ _ _ (map (coords s e q0) l2)). change (coords s e q0 a :: coords s e q0 b :: map (coords s e q0) qs) with (map (coords s e q0) (a :: b :: qs)). rewrite E. cbn [map app]. rewrite map_app. reflexivity.
    - intros H l1 x y z l2 E. change (coords s e q0 a :: coords s e q0 b :: map (coords s e q0) qs) with (map (coords s e q0) (a :: b :: qs)) in E. apply map_eq_app in E as (m1 & m2 & E & E1 & E2). apply map_eq_cons in E2 as (x' & m3 & -> & <- & E2). apply map_eq_cons in E2 as (y' & m4 & -> & <- & E2). apply map_eq_cons in E2 as (z' & m5 & -> & <- & _).
      rewrite (coords_turn s e q0 UE). destruct m1 as [|w m1]; cbn in E.
      + injection E as <- <- E. apply H; [exact BA|]. apply path_iff. exists [], m5. now rewrite E.
      + injection E as <- E. apply H; apply path_iff; [exists m1, (z' :: m5); exact E|exists (m1 ++ [x']), m5; rewrite E; now rewrite <- app_assoc]. }
  split; [|exact G]. intros CCW. apply G; [apply CCW|]. rewrite (C1 CCW). intros a b c I J. destruct CCW as (_ & C & _). pose proof (C a b c I J). lra.
Qed.
(** A five-pointed star counts as convex. *)
Theorem C90_star_refuted : exists qs : list p2, NoDup qs /\ Poly_IsConvex (map (embed origin (V3 1 0 0) (V3 0 1 0)) qs) = true /\ exists a b v, In (a, b) (polygon_edges qs) /\ In v qs /\ turn a b v < 0.
Proof.
  set (qs := [V2 0 3; V2 (-2) (-3); V2 3 1; V2 (-3) 1; V2 2 (-3)] : list p2). exists qs.
  assert (ND : NoDup qs) by (repeat constructor; cbn; intros K; repeat (destruct K as [K|K]; [apply (f_equal (fun v => (x2 v, y2 v))) in K; cbn in K; injection K; intros; lra|]); exact K). split; [exact ND|]. split.
  - assert (T : turn (V2 0 3) (V2 (-2) (-3)) (V2 3 1) = 22) by (unfold turn, area2, mi; cbn; lra).
    assert (SP : spans qs) by (exists (V2 0 3), (V2 (-2) (-3)), (V2 3 1); split; [now exists [], [], [], [V2 (-3) 1; V2 2 (-3)]|rewrite T, Rabs_pos_eq; lra]).
    assert (LL : eps6 < dst (V2 0 3) (V2 (-2) (-3))) by (unfold dst, nrm, dt, mi; cbn [x2 y2]; apply Rlt_le_trans with 1; [unfold eps6; lra|]; rewrite <- sqrt_1 at 1; apply sqrt_le_1; lra).
    assert (PC : Poly_NormalCCW (map (embed origin (V3 1 0 0) (V3 0 1 0)) qs) = Some (scale 1 (cross (V3 1 0 0) (V3 0 1 0)))) by (unfold Poly_NormalCCW, qs; rewrite (first_triple origin (V3 1 0 0) (V3 0 1 0) xy_frame); rewrite T; [|rewrite Rabs_pos_eq; unfold lev; lra]; rewrite sgn_pos by lra; reflexivity).
    destruct (C90_convex origin (V3 1 0 0) (V3 0 1 0) (V2 0 3) (V2 (-2) (-3)) [V2 3 1; V2 (-3) 1; V2 2 (-3)] xy_frame SP LL ltac:(cbn; lia)) as (s & S & EN & _ & G). apply (eq_trans (eq_sym PC)) in EN. injection EN as _ _ EN.
    assert (s = 1) by (destruct S as [ -> | -> ]; [reflexivity|]; lra). subst s. apply (G ND).
    intros a b c I J. cbn in I, J. repeat (destruct I as [I|I]; [injection I as <- <-; repeat (destruct J as [J|J]; [injection J; intros; subst; try (unfold turn, area2, mi; cbn; lra); lra|]); destruct J|]). destruct I.
  - exists (V2 0 3), (V2 (-2) (-3)), (V2 (-3) 1). split; [cbn; auto|]. split; [cbn; auto|]. unfold turn, area2, mi. cbn. lra.
Qed.
(** The normals and planes of the edges of a convex polygon face outwards. *)
Lemma edge_R (o U V : pt) (qs : list p2) i e : (2 <= length qs)%nat -> Poly_Edge (map (embed o U V) qs) i = Some e -> exists a b, In (a, b) (polygon_edges qs) /\ e = Seg (embed o U V a) (embed o U V b).
Proof.
  intros L H. assert (F : Poly_Edge (map (embed o U V) qs) i = match nth_error (map (embed o U V) qs) i, nth_error (map (embed o U V) qs) (Nat.modulo (i + 1) (length (map (embed o U V) qs))) with Some a, Some b => Some (Seg a b) | _, _ => None end).
  { destruct qs as [|x [|y r]]; [cbn in L; lia|cbn in L; lia|reflexivity]. }
  rewrite F, map_length, !nth_error_map in H. clear F. destruct (nth_error qs i) as [a|] eqn:A; [|discriminate]. destruct (nth_error qs ((i + 1) mod length qs)) as [b|] eqn:B; [|discriminate]. cbn in H. injection H as <-. exists a, b. split; [|reflexivity].
  assert (I : (i < length qs)%nat) by (apply nth_error_Some; congruence). destruct qs as [|q qs]; [cbn in L; lia|]. cbn [polygon_edges]. apply path_iff.
  destruct (Nat.eq_dec (i + 1) (length (q :: qs))) as [E|E].
  - rewrite E, Nat.mod_same in B by (cbn; lia). cbn in B. injection B as <-. exists [], qs. cbn. f_equal. apply nth_error_split in A as (l1 & l2 & A1 & A2). rewrite A1 in E. rewrite app_length in E. cbn in E. assert (l2 = []) by (destruct l2; [reflexivity|cbn in E; lia]). subst l2. change (match qs with [] => q | _ :: _ => last qs q end) with (last (q :: qs) q). rewrite A1. apply last_last.
  - rewrite Nat.mod_small in B by lia. apply nth_error_split in A as (l1 & l2 & A1 & A2). rewrite A1 in B. rewrite nth_error_app2 in B by lia. replace (i + 1 - length l1)%nat with 1%nat in B by lia. cbn in B. destruct l2 as [|c l2]; [discriminate|]. cbn in B. injection B as ->. exists (last (q :: qs) q :: l1), l2. cbn [app]. now rewrite A1.
Qed.
Theorem C90_edge_normals (o U V : pt) (q0 q1 : p2) (rest : list p2) (i : nat) : let qs := q0 :: q1 :: rest in frame U V -> spans qs -> eps6 < dst q0 q1 -> ccw_polygon qs -> (forall a b, In (a, b) (polygon_edges qs) -> eps6 < dst a b) -> (i < length qs)%nat ->
  exists a b n P, Poly_Edge (map (embed o U V) qs) i = Some (Seg (embed o U V a) (embed o U V b)) /\ In (a, b) (polygon_edges qs) /\ Poly_EdgeNormal (map (embed o U V) qs) i = Some n /\ Poly_EdgePlane (map (embed o U V) qs) i = Some P /\
  unitv n /\ dot n (cross U V) = 0 /\ pnormal P = n /\ on_plane P (embed o U V a) /\ on_plane P (embed o U V b) /\ (forall q, height P (embed o U V q) = - turn a b q / dst a b) /\ forall q, in_hull2 qs q -> height P (embed o U V q) <= 0.
Proof.
  intros qs FR SP L CCW LONG I. destruct (setup o U V q0 q1 rest FR SP L) as (s & _ & _ & _ & PL & _ & _ & C1). fold qs in PL, C1. rewrite (C1 CCW) in PL. clear C1.
  assert (LEN : (2 <= length qs)%nat) by (cbn; lia).
  assert (EE : exists e, Poly_Edge (map (embed o U V) qs) i = Some e).
  { change (Poly_Edge (map (embed o U V) qs) i) with (match nth_error (map (embed o U V) qs) i, nth_error (map (embed o U V) qs) (Nat.modulo (i + 1) (length (map (embed o U V) qs))) with Some a, Some b => Some (Seg a b) | _, _ => None end).
    destruct (nth_error (map (embed o U V) qs) i) eqn:A; [|apply nth_error_None in A; rewrite map_length in A; lia]. destruct (nth_error (map (embed o U V) qs) ((i + 1) mod length (map (embed o U V) qs))) eqn:B; [eexists; reflexivity|]. apply nth_error_None in B. pose proof (Nat.mod_upper_bound (i + 1) (length (map (embed o U V) qs))) as K. rewrite map_length in *. exfalso. specialize (K ltac:(lia)). lia. }
  destruct EE as (e & EE). destruct (edge_R o U V qs i e LEN EE) as (a & b & IN & ->). pose proof (LONG a b IN) as LAB. assert (E0 : 0 < eps6) by (unfold eps6; lra).
  set (w := sc (/ dst a b) (mi b a)). assert (UW : dt w w = 1) by (apply unit_e; lra).
  assert (DR : Seg_Dir (Seg (embed o U V a) (embed o U V b)) = dir U V w) by (rewrite Seg_Dir_R; cbn [seg_a seg_b]; rewrite (emb_dist o U V FR); [rewrite (emb_minus o U V); unfold w; now rewrite dir_sc|exact LAB]).
  set (n := dir U V (sc (-1) (perp w))).
  assert (EN : Poly_EdgeNormal (map (embed o U V) qs) i = Some n).
  { unfold Poly_EdgeNormal. rewrite EE, PL. rewrite DR. cbn [facing pnormal]. change (@Cross R Num_R) with cross. f_equal. rewrite scale_1.
    replace (cross (dir U V w) (cross U V)) with n; [rewrite Normalized_R; unfold n; rewrite (dir_norm U V FR); replace (nrm (sc (-1) (perp w))) with 1; [now rewrite Rinv_1, scale_1|symmetry; apply nrm_1; unfold dt, sc, perp in *; cbn [x2 y2] in *; lra|unfold eps6; lra|symmetry; apply nrm_1; unfold dt, sc, perp in *; cbn [x2 y2] in *; lra]|].
    unfold n. rewrite dir_sc, <- (N_cross U V FR). unfold cross, scale. apply vec_ext; cbn [vx vy vz]; ring. }
  exists a, b, n, (Plane_Set (embed o U V a) n). split; [exact EE|]. split; [exact IN|]. split; [exact EN|]. split; [unfold Poly_EdgePlane; now rewrite EE, EN|].
  assert (H : forall q, height (Plane_Set (embed o U V a) n) (embed o U V q) = - turn a b q / dst a b).
  { intros q. unfold height, Plane_Set. cbn [pnormal pd]. change (@Dot R Num_R) with dot. rewrite (dot_comm (embed o U V a) n), <- dot_minus_r, (emb_minus o U V). unfold n. rewrite (dir_dot U V FR). unfold w, dt, sc, perp, turn, area2, mi. cbn [x2 y2]. unfold Rdiv. ring. }
  split; [unfold unitv, n; rewrite (dir_dot U V FR); unfold dt, sc, perp in *; cbn [x2 y2] in *; lra|]. split; [unfold n; rewrite dot_comm; apply N_dir|]. split; [reflexivity|]. split; [apply height_zero; rewrite H; rewrite turn_back; unfold Rdiv; ring|]. split; [apply height_zero; rewrite H; rewrite turn_same; unfold Rdiv; ring|]. split; [exact H|].
  intros q Q. rewrite H. assert (T : 0 <= turn a b q).
  { apply (Q (fun z => 0 <= turn a b z)); [intros u v t (T0 & T1) A B; replace (turn a b (pl u (sc t (mi v u)))) with ((1 - t) * turn a b u + t * turn a b v) by (unfold turn, area2, pl, sc, mi; cbn [x2 y2]; ring); apply Rplus_le_le_0_compat; apply Rmult_le_pos; lra|]. intros v J. now apply CCW. }
  unfold Rdiv. assert (0 < / dst a b) by (apply Rinv_0_lt_compat; lra). nra.
Qed.
(** Containment. *)
Lemma contains_R (o U V : pt) (q0 q1 : p2) (rest : list p2) (q : p2) (h th s : R) : let qs := q0 :: q1 :: rest in let ps := map (embed o U V) qs in let e := sc (/ dst q0 q1) (mi q1 q0) in frame U V -> s * s = 1 -> dt e e = 1 -> (3 <= length qs)%nat ->
  Poly_BasisU ps = dir U V e -> Poly_BasisV ps = dir U V (sc s (perp e)) ->
  Poly_Contains ps (plus (embed o U V q) (scale h (cross U V))) th = Rleb (h * h) th && parity rayCrosses (last (map (fun v => nudged (coords s e q v)) qs) o2) (map (fun v => nudged (coords s e q v)) qs).
Proof.
  intros qs ps e FR S1 UE LEN BU BV. set (x := plus (embed o U V q) (scale h (cross U V))).
  set (to := fun p : pt => nudge (V2 (dot (minus p x) (dir U V e)) (dot (minus p x) (dir U V (sc s (perp e)))) : p2)).
  assert (F : Poly_Contains ps x th = (if Rltb th (dot (cross (dir U V e) (dir U V (sc s (perp e)))) (minus (embed o U V q0) x) * dot (cross (dir U V e) (dir U V (sc s (perp e)))) (minus (embed o U V q0) x)) then false else Nat.eqb (Nat.modulo (crossings (to (last ps (embed o U V q0))) (map to ps)) 2) 1)).
  { unfold to. rewrite <- BU, <- BV. unfold ps, qs in *. destruct rest as [|z r]; [cbn in LEN; lia|reflexivity]. }
  rewrite F. clear F. assert (PT : forall v, minus (embed o U V v) x = minus (dir U V (mi v q)) (scale h (cross U V))) by (intros v; rewrite <- (emb_minus o U V); unfold x, minus, plus, scale; apply vec_ext; cbn [vx vy vz]; ring).
  assert (TO : forall v, to (embed o U V v) = nudged (coords s e q v)).
  { intros v. unfold to. rewrite nudge_R. f_equal. rewrite PT. rewrite !(dot_minus_l), !dot_scale_l, !(N_dir U V), !(dir_dot U V FR), !Rmult_0_r, !Rminus_0_r. unfold coords. f_equal. unfold dt, sc, perp, area2; cbn [x2 y2]; ring. }
  assert (MP : map to ps = map (fun v => nudged (coords s e q v)) qs) by (unfold ps; rewrite map_map; apply map_ext; exact TO).
  assert (LS : to (last ps (embed o U V q0)) = last (map (fun v => nudged (coords s e q v)) qs) o2).
  { unfold ps. assert (NE : qs <> []) by discriminate. destruct (exists_last NE) as (l & z & ->). rewrite !map_app. cbn [map]. rewrite !last_last. apply TO. }
  rewrite MP, LS, crossings_parity. replace (dot (cross (dir U V e) (dir U V (sc s (perp e)))) (minus (embed o U V q0) x)) with (- (s * h)).
  - replace (- (s * h) * - (s * h)) with (s * s * (h * h)) by ring. rewrite S1, Rmult_1_l. destruct (Rltb_spec th (h * h)) as [K|K]; [rewrite (proj2 (Rleb_false _ _)) by lra|rewrite (proj2 (Rleb_true _ _)) by lra]; reflexivity.
  - rewrite PT, (dir_cross U V), dot_scale_l, dot_minus_r, dot_scale_r, (N_dir U V), (NN1 U V FR). replace (area2 e (sc s (perp e))) with s; [ring|]. unfold area2, sc, perp, dt in *. cbn [x2 y2] in *. transitivity (s * (x2 e * x2 e + y2 e * y2 e)); [rewrite UE; ring|ring].
Qed.
Lemma space_point (U V x : pt) (o : pt) : frame U V -> exists q h, x = plus (embed o U V q) (scale h (cross U V)).
Proof.
  intros FR. set (d := minus x o). exists (V2 (dot d U) (dot d V)), (dot d (cross U V)). destruct FR as (UU & VV & UV).
  assert (D : d = plus (plus (scale (dot d U) U) (scale (dot d V) V)) (scale (dot d (cross U V)) (cross U V))).
  { set (r := minus d (plus (plus (scale (dot d U) U) (scale (dot d V) V)) (scale (dot d (cross U V)) (cross U V)))). assert (RU : dot r U = 0) by (unfold r; rewrite dot_minus_l, !dot_plus_l, !dot_scale_l, UU, (dot_comm V U), UV, (dot_comm (cross U V) U), cross_dot_l; ring).
    assert (RV : dot r V = 0) by (unfold r; rewrite dot_minus_l, !dot_plus_l, !dot_scale_l, VV, UV, (dot_comm (cross U V) V), cross_dot_r; ring). assert (NN : dot (cross U V) (cross U V) = 1) by (rewrite cross_sq, UU, VV, UV; ring).
    assert (RN : dot r (cross U V) = 0) by (unfold r; rewrite dot_minus_l, !dot_plus_l, !dot_scale_l, cross_dot_l, cross_dot_r, NN; ring).
    assert (Z : r = origin).
    { apply dot_zero. assert (C : cross (cross U V) r = origin) by (rewrite cross_cross, (dot_comm U r), (dot_comm V r), RU, RV; unfold minus, scale, origin; apply vec_ext; cbn [vx vy vz]; ring).
      pose proof (cross_sq (cross U V) r) as Q. rewrite C, NN, (dot_comm (cross U V) r), RN in Q. unfold dot at 1, origin in Q. cbn in Q. lra. }
    unfold r in Z. clear - Z. apply vec_ext; [apply (f_equal vx) in Z|apply (f_equal vy) in Z|apply (f_equal vz) in Z]; unfold minus, origin in Z; cbn [vx vy vz] in Z |- *; lra. }
  unfold embed. cbn [x2 y2]. transitivity (plus o d); [unfold d, plus, minus; apply vec_ext; cbn [vx vy vz]; ring|]. rewrite D at 1. unfold plus. apply vec_ext; cbn [vx vy vz]; ring.
Qed.
(** A point reported as contained is within the thickness of the plane and within 2e-4 of the convex hull of the vertices, for any plane polygon;
    it lies in the hull when no vertex is within 1e-4 of the line through the point along the first edge. *)
Theorem C91_sound (o U V : pt) (q0 q1 : p2) (rest : list p2) (x : pt) (th : R) : let qs := q0 :: q1 :: rest in frame U V -> spans qs -> eps6 < dst q0 q1 -> Poly_Contains (map (embed o U V) qs) x th = true ->
  exists q h, x = plus (embed o U V q) (scale h (cross U V)) /\ h * h <= th /\ (exists y, in_hull2 qs y /\ dst q y <= 1 / 5000) /\
    ((forall v, In v qs -> 1 / 10000 <= Rabs (turn q0 q1 (pl q0 (mi v q))) / dst q0 q1) -> in_hull2 qs q).
Proof.
  intros qs FR SP L H. destruct (setup o U V q0 q1 rest FR SP L) as (s & S & S1 & UE & PL & BU & BV & _). fold qs in PL, BU, BV. set (e := sc (/ dst q0 q1) (mi q1 q0)) in *. assert (E0 : 0 < eps6) by (unfold eps6; lra).
  destruct (space_point U V x o FR) as (q & h & ->). exists q, h. split; [reflexivity|].
  assert (LEN : (3 <= length qs)%nat) by (unfold qs in *; destruct rest; [discriminate H|cbn; lia]).
  pose proof (contains_R o U V q0 q1 rest q h th s FR S1 UE LEN BU BV) as CR. fold qs e in CR. rewrite CR in H. clear CR. apply andb_prop in H as (H1 & H2). apply Rleb_true in H1. split; [exact H1|].
  assert (NEM : map (fun v => nudged (coords s e q v)) qs <> []) by discriminate.
  assert (HU : in_hull2 (map (fun v => nudged (coords s e q v)) qs) o2) by (apply (odd_in_hull _ o2); [intros v I; apply in_map_iff in I as (w & <- & _); apply nudged_y|exact NEM|exact H2]).
  split.
  - destruct (hull_near (map (fun v => nudged (coords s e q v)) qs) (map (coords s e q) qs) (2 * lev) o2) as (z & Z & D); [|exact HU|].
    + intros v I. apply in_map_iff in I as (w & <- & I). exists (coords s e q w). split; [now apply in_map|]. rewrite dst_sym. apply nudged_near.
    + exists (uncoords s e q z). split; [now apply (hull_back s e q S1 UE)|]. rewrite <- (uncoords_o s e q S1 UE) at 1. rewrite (uncoords_dst s e q S1 UE). unfold lev in D. lra.
  - intros B. rewrite <- (uncoords_o s e q S1 UE). apply (hull_back s e q S1 UE). replace (map (coords s e q) qs) with (map (fun v => nudged (coords s e q v)) qs); [exact HU|]. apply map_ext_in. intros v I. specialize (B v I).
    unfold nudged. destruct (Rltb_spec (Rabs (y2 (coords s e q v))) lev) as [K|K]; [exfalso|reflexivity]. unfold coords in K. cbn [y2] in K. rewrite Rabs_mult in K. assert (AS : Rabs s = 1) by (destruct S as [ -> | -> ]; [apply Rabs_R1|rewrite Rabs_left; lra]). rewrite AS, Rmult_1_l in K.
    assert (E : area2 e (mi v q) = turn q0 q1 (pl q0 (mi v q)) / dst q0 q1) by (unfold e, turn, area2, sc, pl, mi, Rdiv; cbn [x2 y2]; ring). rewrite E in K. unfold Rdiv in K. rewrite Rabs_mult, (Rabs_pos_eq (/ dst q0 q1)) in K by (left; apply Rinv_0_lt_compat; lra). unfold lev, Rdiv in K, B. lra.
Qed.
(** For a convex polygon every point within the thickness of the plane and more than 2e-4 inside every edge is contained, and so is every
    interior point when no vertex is within 1e-4 of the line through the point along the first edge. *)
Theorem C91_complete (o U V : pt) (q0 q1 : p2) (rest : list p2) (q : p2) (h th : R) : let qs := q0 :: q1 :: rest in frame U V -> spans qs -> eps6 < dst q0 q1 -> ccw_polygon qs -> h * h <= th ->
  deep_inside qs q (1 / 5000) \/ (strictly_inside qs q /\ forall v, In v qs -> 1 / 10000 <= Rabs (turn q0 q1 (pl q0 (mi v q))) / dst q0 q1) ->
  Poly_Contains (map (embed o U V) qs) (plus (embed o U V q) (scale h (cross U V))) th = true.
Proof.
  intros qs FR SP L CCW H D. destruct (setup o U V q0 q1 rest FR SP L) as (s & _ & S1 & UE & PL & BU & BV & C1). fold qs in PL, BU, BV, C1. specialize (C1 CCW). subst s. set (e := sc (/ dst q0 q1) (mi q1 q0)) in *. assert (E0 : 0 < eps6) by (unfold eps6; lra).
  assert (LEN : (3 <= length qs)%nat) by (destruct SP as (a & b & c & (l1 & l2 & l3 & l4 & E) & _); rewrite E; rewrite !app_length; cbn; rewrite !app_length; cbn; rewrite !app_length; cbn; lia).
  pose proof (contains_R o U V q0 q1 rest q h th 1 FR S1 UE LEN BU BV) as CR. fold qs e in CR. rewrite CR. clear CR. rewrite (proj2 (Rleb_true _ _)) by exact H. cbn [andb]. rewrite <- (map_map (coords 1 e q) nudged).
  assert (ED : forall a b, In (a, b) (polygon_edges (map (coords 1 e q) qs)) -> exists a' b', a = coords 1 e q a' /\ b = coords 1 e q b' /\ In (a', b') (polygon_edges qs)).
  { intros a b I. rewrite edges_map in I. apply in_map_iff in I as ((a' & b') & E & I). cbn in E. injection E as <- <-. exists a', b'. auto. }
  apply inside_parity; [apply ccw_map; [apply (coords_inj 1 e q S1 UE)|intros a b c; rewrite (coords_turn 1 e q UE); ring|exact CCW]|rewrite map_length; exact LEN|].
  destruct D as [D|(D & B)]; [right|left; split].
  - intros a b I. apply ED in I as (a' & b' & -> & -> & I). rewrite (coords_o 1 e q UE), (coords_dst 1 e q S1 UE). specialize (D a' b' I). unfold lev. lra.
  - intros a b I. apply ED in I as (a' & b' & -> & -> & I). rewrite (coords_o 1 e q UE). specialize (D a' b' I). lra.
  - intros v I. apply in_map_iff in I as (w & <- & I). specialize (B w I). unfold coords. cbn [y2]. rewrite Rmult_1_l. replace (area2 e (mi w q)) with (turn q0 q1 (pl q0 (mi w q)) / dst q0 q1) by (unfold e, turn, area2, sc, pl, mi, Rdiv; cbn [x2 y2]; ring).
    unfold Rdiv. rewrite Rabs_mult, (Rabs_pos_eq (/ dst q0 q1)) by (left; apply Rinv_0_lt_compat; lra). unfold lev, Rdiv in *. lra.
Qed.
(** For any plane polygon, convex or not, self-intersecting or not: containment is the even-odd rule over the fan of triangles from the
    first vertex, for points on no line through two vertices of a fan triangle and with no vertex within 1e-4 of the line along the first edge. *)
Fixpoint clear_fan (v0 v : p2) (rest : list p2) (q : p2) : Prop := match rest with [] => True | w :: r => turn v0 v q <> 0 /\ turn v w q <> 0 /\ turn w v0 q <> 0 /\ clear_fan v0 w r q end.
Theorem C91_even_odd (o U V : pt) (q0 q1 : p2) (rest : list p2) (q : p2) (h th : R) : let qs := q0 :: q1 :: rest in frame U V -> spans qs -> eps6 < dst q0 q1 -> h * h <= th ->
  (forall v, In v qs -> 1 / 10000 <= Rabs (turn q0 q1 (pl q0 (mi v q))) / dst q0 q1) -> clear_fan q0 q1 rest q ->
  (Poly_Contains (map (embed o U V) qs) (plus (embed o U V q) (scale h (cross U V))) th = true <-> odd_fan q0 q1 rest q).
Proof.
  intros qs FR SP L H B CL. destruct (setup o U V q0 q1 rest FR SP L) as (s & S & S1 & UE & PL & BU & BV & _). fold qs in PL, BU, BV. set (e := sc (/ dst q0 q1) (mi q1 q0)) in *. assert (E0 : 0 < eps6) by (unfold eps6; lra).
  assert (LEN : (3 <= length qs)%nat) by (destruct SP as (a & b & c & (l1 & l2 & l3 & l4 & E) & _); rewrite E; rewrite !app_length; cbn; rewrite !app_length; cbn; rewrite !app_length; cbn; lia).
  pose proof (contains_R o U V q0 q1 rest q h th s FR S1 UE LEN BU BV) as CR. fold qs e in CR. rewrite CR. clear CR. rewrite (proj2 (Rleb_true _ _)) by exact H. cbn [andb].
  assert (AS : Rabs s = 1) by (destruct S as [ -> | -> ]; [apply Rabs_R1|rewrite Rabs_left; lra]). assert (L0 : 0 < lev) by (unfold lev; lra).
  assert (NU : forall v, In v qs -> lev <= Rabs (y2 (coords s e q v))).
  { intros w I. specialize (B w I). unfold coords. cbn [y2]. rewrite Rabs_mult, AS, Rmult_1_l. replace (area2 e (mi w q)) with (turn q0 q1 (pl q0 (mi w q)) / dst q0 q1) by (unfold e, turn, area2, sc, pl, mi, Rdiv; cbn [x2 y2]; ring).
    unfold Rdiv. rewrite Rabs_mult, (Rabs_pos_eq (/ dst q0 q1)) by (left; apply Rinv_0_lt_compat; lra). unfold lev, Rdiv in *. lra. }
  replace (map (fun v => nudged (coords s e q v)) qs) with (map (coords s e q) qs) by (apply map_ext_in; intros v I; unfold nudged; destruct (Rltb_spec (Rabs (y2 (coords s e q v))) lev) as [K|K]; [pose proof (NU v I); lra|reflexivity]).
  unfold qs. cbn [map]. rewrite closed_parity by apply rayCrosses_sym.
  assert (NZ : forall v, In v qs -> y2 (coords s e q v) <> 0) by (intros v I Z; pose proof (NU v I) as K; rewrite Z, Rabs_R0 in K; lra). clear B NU.
  assert (AR : forall a b, area2 (coords s e q a) (coords s e q b) = s * turn a b q) by (intros a b; rewrite <- (coords_o s e q UE); unfold turn, area2, mi, o2; cbn [x2 y2]; ring).
  assert (G : forall r v, In v qs -> (forall w, In w r -> In w qs) -> clear_fan q0 v r q -> (fanpar rayCrosses (coords s e q q0) (coords s e q v) (map (coords s e q) r) = true <-> odd_fan q0 v r q)).
  { induction r as [|w r IH]; intros v Iv Ir C; [cbn; split; [discriminate|intros []]|]. cbn [clear_fan] in C. destruct C as (C1 & C2 & C3 & C). specialize (IH w (Ir w (or_introl eq_refl)) (fun z I => Ir z (or_intror I)) C). cbn [map fanpar odd_fan].
    assert (T : parity rayCrosses (coords s e q q0) [coords s e q v; coords s e q w; coords s e q q0] = true <-> inside_tri q0 v w q).
    { rewrite tri_parity; try (apply NZ; [now left|assumption|apply Ir; now left]); [|apply NZ; now left|apply NZ; exact Iv|apply NZ; apply Ir; now left|rewrite AR; destruct S as [ -> | -> ]; lra|rewrite AR; destruct S as [ -> | -> ]; lra|rewrite AR; destruct S as [ -> | -> ]; lra].
      rewrite !AR. unfold inside_tri. destruct S as [ -> | -> ]; split; intros [K|K]; ((left; lra) || (right; lra)). }
    destruct (parity rayCrosses (coords s e q q0) [coords s e q v; coords s e q w; coords s e q q0]), (fanpar rayCrosses (coords s e q q0) (coords s e q w) (map (coords s e q) r)); cbn [xorb]; intuition discriminate. }
  apply (G rest q1); [right; now left|intros w I; right; now right|exact CL].
Qed.
Lemma normalized_1 (v : pt) : norm (Normalized v) = 1.
Proof.
  destruct (Rlt_le_dec (1 / 1000000) (norm v)) as [H|H].
  - rewrite Normalized_R by exact H. rewrite norm_scale, Rabs_pos_eq by (left; apply Rinv_0_lt_compat; lra). apply Rinv_l. lra.
  - unfold Normalized, Normalize. change (Length v) with (norm v). cbv zeta. rsimpl. destruct (Rltb_spec (1 / 1000000) (norm v)); [lra|]. cbn [fst]. apply unit_norm1. unfold unitv, dot. cbn. ring.
Qed.
Lemma basisV_short (ps : list pt) : norm (Poly_BasisV ps) <= 1.
Proof.
  assert (N1 : norm (V3 0 1 0) = 1) by (apply unit_norm1; unfold unitv, dot; cbn; ring). unfold Poly_BasisV. destruct ps as [|a [|b r]]; [right; exact N1|right; exact N1|]. destruct (Poly_PlaneCCW (a :: b :: r)); [right; apply normalized_1|right; exact N1].
Qed.
(** Polygons smaller than 1e-4 in every direction contain nothing: all vertices are moved to the same line. *)
Theorem C91_tiny_refuted : exists (qs : list p2) (q : p2), ccw_polygon qs /\ strictly_inside qs q /\ forall th, Poly_Contains (map (embed origin (V3 1 0 0) (V3 0 1 0)) qs) (embed origin (V3 1 0 0) (V3 0 1 0) q) th = false.
Proof.
  set (k := / 40000). exists [V2 0 0; V2 k 0; V2 0 k], (V2 (k / 3) (k / 3)). assert (K : 0 < k) by (unfold k; lra). split; [|split].
  - repeat split.
    + repeat constructor; cbn; intros J; repeat (destruct J as [J|J]; [apply (f_equal (fun v => (x2 v, y2 v))) in J; cbn in J; injection J; intros; lra|]); exact J.
    + intros a b c I J. cbn in I, J. repeat (destruct I as [I|I]; [injection I as <- <-; repeat (destruct J as [J|J]; [injection J; intros; subst; try (unfold turn, area2, mi; cbn; nra); lra|]); destruct J|]). destruct I.
    + intros a b v I J. cbn in I, J. repeat (destruct I as [I|I]; [injection I as <- <-; repeat (destruct J as [J|J]; [subst; unfold turn, area2, mi; cbn; nra|]); destruct J|]). destruct I.
  - intros a b I. cbn in I. repeat (destruct I as [I|I]; [injection I as <- <-; unfold turn, area2, mi; cbn; nra|]). destruct I.
  - intros th. set (ps := map (embed origin (V3 1 0 0) (V3 0 1 0)) [V2 0 0; V2 k 0; V2 0 k]). set (x := embed origin (V3 1 0 0) (V3 0 1 0) (V2 (k / 3) (k / 3))).
    change (Poly_Contains ps x th) with (let basisU := Poly_BasisU ps in let basisV := Poly_BasisV ps in let normal := @Cross R Num_R basisU basisV in let dot := @Dot R Num_R normal (@vsub R Num_R (embed origin (V3 1 0 0) (V3 0 1 0) (V2 0 0)) x) in if Rltb th (dot * dot) then false else
      let to2D p := let vt := @vsub R Num_R p x in @nudge R Num_R (V2 (@Dot R Num_R vt basisU) (@Dot R Num_R vt basisV)) in Nat.eqb (Nat.modulo (crossings (to2D (last ps (embed origin (V3 1 0 0) (V3 0 1 0) (V2 0 0)))) (map to2D ps)) 2) 1).
    cbv zeta. destruct (Rltb th _); [reflexivity|]. rewrite crossings_parity. set (to2D := fun p : pt => _). 
    assert (NB : norm (Poly_BasisV ps) <= 1) by (apply basisV_short).
    assert (Y : forall v, In v [V2 0 0; V2 k 0; V2 0 k] -> y2 (to2D (embed origin (V3 1 0 0) (V3 0 1 0) v)) = - lev).
    { intros v I. unfold to2D. change (y2 (nudge (V2 (dot (minus (embed origin (V3 1 0 0) (V3 0 1 0) v) x) (Poly_BasisU ps)) (dot (minus (embed origin (V3 1 0 0) (V3 0 1 0) v) x) (Poly_BasisV ps)) : p2)) = - lev). rewrite nudge_R. unfold nudged. cbn [y2]. rewrite (proj2 (Rltb_true _ _)); [reflexivity|].
      eapply Rle_lt_trans; [apply cauchy|]. assert (D : norm (minus (embed origin (V3 1 0 0) (V3 0 1 0) v) x) < lev).
      { unfold x. fold (dist (embed origin (V3 1 0 0) (V3 0 1 0) v) (embed origin (V3 1 0 0) (V3 0 1 0) (V2 (k / 3) (k / 3)))). rewrite (emb_dist _ _ _ xy_frame). apply (Rle_lt_trans _ (2 * k)); [|unfold k, lev; lra]. unfold dst, nrm. rewrite <- (sqrt_square (2 * k)) by lra. apply sqrt_le_1_alt.
        cbn in I. destruct I as [<-|[<-|[<-|[]]]]; unfold dt, mi; cbn [x2 y2]; nra. }
      pose proof (norm_pos (minus (embed origin (V3 1 0 0) (V3 0 1 0) v) x)). pose proof (norm_pos (Poly_BasisV ps)). nra. }
    apply parity_none. intros a b I. apply rayCrosses_false. intros Z. exfalso.
    assert (ALL : forall z, In z (map to2D ps) -> y2 z = - lev) by (intros z J; apply in_map_iff in J as (p & <- & J); unfold ps in J; apply in_map_iff in J as (v & <- & J); now apply Y).
    apply path_in in I as (Ia & Ib). assert (A : y2 a = - lev) by (destruct Ia as [ -> |Ia]; [apply (Y (V2 0 k)); cbn; auto|now apply ALL]). rewrite A, (ALL b Ib) in Z. unfold lev in Z. lra.
Qed.
(** [Contains(Polygon, thickness)] hands the thickness on as a squared thickness: the small square three hundredths above the big one is
    reported as contained in it at thickness one thousandth. *)
Theorem C91_thickness_refuted : exists ps qs : list pt, Poly_ContainsPolygon ps qs (1 / 1000) = true /\ qs <> [] /\ (forall p, In p ps -> vz p = 0) /\ (forall q, In q qs -> vz q = 3 / 100).
Proof.
  set (E := embed origin (V3 1 0 0) (V3 0 1 0)). exists (map E [V2 0 0; V2 2 0; V2 2 2; V2 0 2]), (map (fun q => plus (E q) (scale (3 / 100) (cross (V3 1 0 0) (V3 0 1 0)))) [V2 (1 / 2) (1 / 2); V2 1 (1 / 2); V2 1 1]).
  destruct C90_witness as (FR & SP & CCW & L). split; [|split; [discriminate|split]].
  - unfold Poly_ContainsPolygon. apply forallb_forall. intros x I. apply in_map_iff in I as (q & <- & I). apply (C91_complete origin (V3 1 0 0) (V3 0 1 0) (V2 0 0) (V2 2 0) [V2 2 2; V2 0 2] q (3 / 100) (1 / 1000) FR SP L CCW); [lra|]. left.
    assert (D2 : forall a b, dt (mi a b) (mi a b) = 4 -> dst a b = 2) by (intros a b Z; unfold dst, nrm; rewrite Z; apply sqrt_lem_1; lra).
    intros a b J. cbn in J. assert (DD : dst a b = 2) by (apply D2; repeat (destruct J as [J|J]; [injection J as <- <-; unfold dt, mi; cbn; lra|]); destruct J). rewrite DD.
    cbn in I. repeat (destruct I as [I|I]; [subst q; repeat (destruct J as [J|J]; [injection J as <- <-; unfold turn, area2, mi; cbn; lra|]); destruct J|]). destruct I.
  - intros p I. apply in_map_iff in I as (q & <- & _). unfold E, embed, plus, scale, origin. cbn. ring.
  - intros p I. apply in_map_iff in I as (q & <- & _). unfold E, embed, plus, scale, origin, cross. cbn. ring.
Qed.
Example C91_witness : deep_inside [V2 0 0; V2 2 0; V2 2 2; V2 0 2] (V2 1 1) (1 / 5000) /\ clear_fan (V2 0 0) (V2 2 0) [V2 2 2; V2 0 2] (V2 1 (1 / 2)) /\ odd_fan (V2 0 0) (V2 2 0) [V2 2 2; V2 0 2] (V2 1 (1 / 2)).
Proof.
  assert (D2 : forall a b, dt (mi a b) (mi a b) = 4 -> dst a b = 2) by (intros a b Z; unfold dst, nrm; rewrite Z; apply sqrt_lem_1; lra). split; [|split].
  - intros a b J. cbn in J. assert (DD : dst a b = 2) by (apply D2; repeat (destruct J as [J|J]; [injection J as <- <-; unfold dt, mi; cbn; lra|]); destruct J). rewrite DD. repeat (destruct J as [J|J]; [injection J as <- <-; unfold turn, area2, mi; cbn; lra|]); destruct J.
  - repeat split; unfold turn, area2, mi; cbn; lra.
  - cbn [odd_fan]. left. split; [left; unfold turn, area2, mi; cbn; lra|]. intros [(K & _)|(_ & [])]. unfold inside_tri, turn, area2, mi in K. cbn in K. lra.
Qed.
Print Assumptions C90_convex.
Print Assumptions C90_edge_normals.
Print Assumptions C91_sound.
Print Assumptions C91_complete.
Print Assumptions C91_even_odd.
