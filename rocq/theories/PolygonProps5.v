(** Property C94 of polygons, over the reals: triangulation by ear clipping, and the closest point. *)
From Coq Require Import Reals List Bool Lra Lia Arith Classical.
From Verif Require Import Num NumR ScalarModel ScalarProofs Vec3Model Vec3Props Vec2Model Vec2Spec GeoTypes GeoSpec GeoLemmas AabbModel AabbSpec MatModel MatProofs MatProofs2 LineModel LineSpec LineProofs LineProps PlaneModel PlaneSpec PlaneProps SphereSpec TriangleModel TriangleSpec TriangleProps
  Vec2Props HullSpec HullProofs HullProps2 PlaneTestProofs PolygonModel PolygonSpec PolygonProofs PolygonProps PolygonProps2 PolygonProps3.
Import ListNotations.
Open Scope R_scope.
Ltac Zify.zify_post_hook ::= idtac.

(** ** The loop ends by its own condition: more rounds than (n+1)^2 never change the result. *)
Section Ears.
  Context {T : Type} `{NT : Num T}.
  Lemma removeAt_length {A : Type} (l : list A) j : (j < length l)%nat -> length (removeAt l j) = (length l - 1)%nat.
  Proof. intros H. unfold removeAt. rewrite app_length, firstn_length, skipn_length. lia. Qed.
  Lemma removeAt_in {A : Type} (l : list A) j x : In x (removeAt l j) -> In x l.
  Proof. unfold removeAt. rewrite in_app_iff. intros [H|H]; [rewrite <- (firstn_skipn j l); apply in_or_app; now left|rewrite <- (firstn_skipn (j + 1) l); apply in_or_app; now right]. Qed.
  Lemma ear_fuel N : forall fuel fuel' (vs : list (v2 T * vec T)) i j k n t, (length vs <= N)%nat -> (n <= length vs)%nat -> (length vs * (N + 1) + (length vs - n) < fuel)%nat -> (fuel <= fuel')%nat ->
    earLoop fuel' vs i j k n t = earLoop fuel vs i j k n t.
  Proof.
    induction fuel as [|fuel IH]; intros fuel' vs i j k n t LN LT LF FF; [lia|]. destruct fuel' as [|fuel']; [lia|]. cbn [earLoop]. destruct (Nat.ltb_spec 3 (length vs)) as [L3|L3]; cbn [andb]; [|reflexivity]. destruct (Nat.ltb_spec n (length vs)) as [Ln|Ln]; [|reflexivity].
    destruct (nth_error vs i) as [a|] eqn:EA; [|reflexivity]. destruct (nth_error vs j) as [b|] eqn:EB; [|reflexivity]. destruct (nth_error vs k) as [c|] eqn:EC; [|reflexivity].
    assert (LJ : (j < length vs)%nat) by (apply nth_error_Some; congruence). pose proof (removeAt_length vs j LJ) as RL. destruct (OrientedCCW (fst a) (fst b) (fst c) && IsAnEar (map fst vs) i k); [|apply IH; lia]. cbv zeta.
    assert (M : (length (removeAt vs j) * (N + 1) + (length (removeAt vs j) - 0) < fuel)%nat) by (rewrite RL; nia). destruct (0 <? i)%nat; apply IH; lia.
  Qed.
  (** Corners are vertices, and every clipped triangle removes one vertex. *)
  Lemma ear_corners : forall fuel (vs : list (v2 T * vec T)) i j k n t, (3 <= length vs)%nat -> let '(vs', t') := earLoop fuel vs i j k n t in
    exists new, t' = t ++ new /\ (length new + length vs' = length vs)%nat /\ (3 <= length vs')%nat /\ incl vs' vs /\ forall x, In x new -> In (tri_a x) (map snd vs) /\ In (tri_b x) (map snd vs) /\ In (tri_c x) (map snd vs).
  Proof.
    assert (DONE : forall (vs : list (v2 T * vec T)) t, (3 <= length vs)%nat -> exists new, t = t ++ new /\ (length new + length vs = length vs)%nat /\ (3 <= length vs)%nat /\ incl vs vs /\ forall x : triangle T, In x new -> In (tri_a x) (map snd vs) /\ In (tri_b x) (map snd vs) /\ In (tri_c x) (map snd vs)).
    { intros vs t L. exists []. rewrite app_nil_r. repeat split; auto; try contradiction. apply incl_refl. }
    induction fuel as [|fuel IH]; intros vs i j k n t L; [now apply DONE|]. cbn [earLoop]. destruct (Nat.ltb_spec 3 (length vs)) as [L3|L3]; cbn [andb]; [|now apply DONE]. destruct (Nat.ltb_spec n (length vs)) as [Ln|Ln]; [|now apply DONE].
    destruct (nth_error vs i) as [a|] eqn:EA; [|now apply DONE]. destruct (nth_error vs j) as [b|] eqn:EB; [|now apply DONE]. destruct (nth_error vs k) as [c|] eqn:EC; [|now apply DONE].
    destruct (OrientedCCW (fst a) (fst b) (fst c) && IsAnEar (map fst vs) i k); [|now apply IH]. cbv zeta. assert (LJ : (j < length vs)%nat) by (apply nth_error_Some; congruence). pose proof (removeAt_length vs j LJ) as RL.
    assert (G : forall i' j' k', let '(vs', t') := earLoop fuel (removeAt vs j) i' j' k' 0 (t ++ [Tri (snd a) (snd b) (snd c)]) in exists new, t' = t ++ new /\ (length new + length vs' = length vs)%nat /\ (3 <= length vs')%nat /\ incl vs' vs /\ forall x, In x new -> In (tri_a x) (map snd vs) /\ In (tri_b x) (map snd vs) /\ In (tri_c x) (map snd vs)).
    { intros i' j' k'. specialize (IH (removeAt vs j) i' j' k' 0%nat (t ++ [Tri (snd a) (snd b) (snd c)]) ltac:(lia)). destruct (earLoop fuel (removeAt vs j) i' j' k' 0 _) as [vs' t']. destruct IH as (new & -> & A & B & C & D). exists (Tri (snd a) (snd b) (snd c) :: new). rewrite <- app_assoc. cbn [app length]. split; [reflexivity|]. split; [lia|]. split; [exact B|]. split; [intros x I; now apply (removeAt_in vs j), C|].
      intros x [<-|I]; [cbn [tri_a tri_b tri_c]; repeat split; apply in_map; eapply nth_error_In; eassumption|]. apply D in I. assert (SB : forall y, In y (map snd (removeAt vs j)) -> In y (map snd vs)) by (intros y Y; apply in_map_iff in Y as (z & <- & Z); apply in_map; now apply (removeAt_in vs j)). destruct I as (X & Y & Z). auto. }
    destruct (0 <? i)%nat; apply G.
  Qed.
End Ears.
(** For every polygon: the corners of the triangles are vertices of the polygon, there are at most n-2 of them, and the search for ears ends. *)
Theorem C94_triangles (ps : list pt) : (forall t, In t (Poly_Triangulate ps) -> In (tri_a t) ps /\ In (tri_b t) ps /\ In (tri_c t) ps) /\ (length (Poly_Triangulate ps) <= length ps - 2)%nat /\
  forall fuel, ((length ps + 1) * (length ps + 1) <= fuel)%nat -> earLoop fuel (combine (Poly_To2D ps) ps) 0 1 2 0 [] = earLoop ((length ps + 1) * (length ps + 1)) (combine (Poly_To2D ps) ps) 0 1 2 0 [].
Proof.
  assert (LC : length (combine (Poly_To2D ps) ps) = length ps) by (rewrite combine_length; destruct ps as [|p ps]; [reflexivity|]; unfold Poly_To2D; rewrite map_length; apply Nat.min_id).
  assert (SN : forall x, In x (map snd (combine (Poly_To2D ps) ps)) -> In x ps) by (intros x I; apply in_map_iff in I as ((u & v) & <- & I); now apply in_combine_r in I).
  assert (FU : forall fuel, ((length ps + 1) * (length ps + 1) <= fuel)%nat -> earLoop fuel (combine (Poly_To2D ps) ps) 0 1 2 0 [] = earLoop ((length ps + 1) * (length ps + 1)) (combine (Poly_To2D ps) ps) 0 1 2 0 []) by (intros fuel F; apply (ear_fuel (length ps)); lia).
  destruct ps as [|p0 [|p1 [|p2' [|p3 rest]]]]; [split; [intros t []|split; [cbn; lia|exact FU]]|split; [intros t []|split; [cbn; lia|exact FU]]|split; [intros t []|split; [cbn; lia|exact FU]]| |].
  - split; [|split; [cbn; lia|exact FU]]. intros t [<-|[]]. cbn [tri_a tri_b tri_c]. repeat split; cbn; auto.
  - set (ps := p0 :: p1 :: p2' :: p3 :: rest) in *. pose proof (ear_corners ((length ps + 1) * (length ps + 1)) (combine (Poly_To2D ps) ps) 0 1 2 0 [] ltac:(rewrite LC; cbn; lia)) as G.
    assert (F : Poly_Triangulate ps = let '(vs, t) := earLoop ((length ps + 1) * (length ps + 1)) (combine (Poly_To2D ps) ps) 0 1 2 0 [] in match map snd vs with [a; b; c] => t ++ [Tri a b c] | _ => t end) by reflexivity.
    destruct (earLoop _ _ 0 1 2 0 []) as [vs t]. destruct G as (new & -> & A & B & C & D). cbn [app] in F. rewrite LC in A.
    assert (CASE : Poly_Triangulate ps = new \/ exists a b c, map snd vs = [a; b; c] /\ Poly_Triangulate ps = new ++ [Tri a b c]) by (rewrite F; destruct (map snd vs) as [|a [|b [|c [|d l]]]]; auto; right; exists a, b, c; auto).
    split; [|split; [|exact FU]].
    + assert (ND : forall t, In t new -> In (tri_a t) ps /\ In (tri_b t) ps /\ In (tri_c t) ps) by (intros t I; destruct (D t I) as (X & Y & Z); auto).
      destruct CASE as [->|(a & b & c & E & ->)]; [exact ND|]. intros t I. apply in_app_or in I as [I|[<-|[]]]; [now apply ND|]. cbn [tri_a tri_b tri_c].
      assert (W : forall x, In x [a; b; c] -> In x ps) by (intros x X; rewrite <- E in X; apply in_map_iff in X as (z & <- & Z); apply SN; apply in_map; now apply C). repeat split; apply W; cbn; auto.
    + destruct CASE as [->|(a & b & c & E & ->)]; [lia|]. rewrite app_length. cbn [length]. lia.
Qed.
(** ** Convex polygons: the fan from the first vertex. *)
Lemma collinear_mid (a b c : p2) : a <> b -> b <> c -> a <> c -> turn a b c = 0 -> exists t, 0 < t < 1 /\ (c = pl a (sc t (mi b a)) \/ a = pl b (sc t (mi c b)) \/ b = pl a (sc t (mi c a))).
Proof.
  intros AB BC AC T. set (D := dt (mi b a) (mi b a)). assert (DP : 0 < D).
  { destruct (Rle_lt_or_eq_dec 0 D) as [K|K]; [unfold D, dt; nra|exact K|exfalso]. apply AB. apply dst_zero. unfold dst. apply (Rsqr_0_uniq). unfold Rsqr. rewrite nrm_sq. unfold D, dt, mi in *. cbn [x2 y2] in *. lra. }
  set (l := dt (mi c a) (mi b a) / D). assert (C : c = pl a (sc l (mi b a))).
  { assert (LX : forall X Y P Q : R, X * Q - Y * P = 0 -> 0 < X * X + Y * Y -> (P * X + Q * Y) / (X * X + Y * Y) * X = P /\ (P * X + Q * Y) / (X * X + Y * Y) * Y = Q).
    { intros X Y P Q E G. split; apply (Rmult_eq_reg_r (X * X + Y * Y)); try lra; [transitivity ((P * X + Q * Y) * X)|transitivity ((P * X + Q * Y) * Y)]; try (field; lra); [transitivity (P * (X * X + Y * Y) + Y * (X * Q - Y * P)); [ring|rewrite E; ring]|transitivity (Q * (X * X + Y * Y) - X * (X * Q - Y * P)); [ring|rewrite E; ring]]. }
    unfold l, D in *. unfold turn, area2, dt, pl, sc, mi in *. cbn [x2 y2] in *. destruct (LX (x2 b - x2 a) (y2 b - y2 a) (x2 c - x2 a) (y2 c - y2 a) T DP) as (A & B). apply v2_ext; cbn [x2 y2]; [rewrite A|rewrite B]; ring. }
  clearbody l. clear DP. clear D. destruct (Rtotal_order l 0) as [L|[->|L]]; [|exfalso; apply AC; rewrite C; unfold pl, sc, mi; apply v2_ext; cbn [x2 y2]; ring|destruct (Rtotal_order l 1) as [M|[->|M]]; [|exfalso; apply BC; rewrite C; unfold pl, sc, mi; apply v2_ext; cbn [x2 y2]; ring|]].
  - assert (P : 0 < / (1 - l)) by (apply Rinv_0_lt_compat; lra). exists (/ (1 - l)). split; [split; [exact P|rewrite <- Rinv_1; apply Rinv_lt_contravar; lra]|]. right. left. rewrite C. unfold pl, sc, mi. apply v2_ext; cbn [x2 y2]; field; lra.
  - exists l. split; [lra|]. now left.
  - assert (P : 0 < / l) by (apply Rinv_0_lt_compat; lra). exists (/ l). split; [split; [exact P|rewrite <- Rinv_1; apply Rinv_lt_contravar; lra]|]. right. right. rewrite C. unfold pl, sc, mi. apply v2_ext; cbn [x2 y2]; field; lra.
Qed.
Lemma not_between (vs : list p2) (m u v : p2) t : ccw_polygon vs -> In m vs -> In u vs -> In v vs -> u <> v -> m <> u -> m <> v -> 0 < t < 1 -> m <> pl u (sc t (mi v u)).
Proof.
  intros CC M U V UV MU MV T E. destruct (succ_edge vs m M) as (w & W & _). assert (Z : (1 - t) * turn m w u + t * turn m w v = 0).
  { transitivity (turn m w (pl u (sc t (mi v u)))); [unfold turn, area2, pl, sc, mi; cbn [x2 y2]; ring|]. rewrite <- E. unfold turn, area2, mi. cbn [x2 y2]. ring. }
  pose proof CC as (_ & _ & LEFT). pose proof (LEFT m w u W U) as A. pose proof (LEFT m w v W V) as B.
  destruct (classic (u = w)) as [->|N]; [pose proof (strict_edge vs m w v CC W V ltac:(congruence) ltac:(congruence)) as K; clear - A K T Z; assert (0 < t * turn m w v) by nra; assert (0 <= (1 - t) * turn m w w) by nra; lra|].
  pose proof (strict_edge vs m w u CC W U ltac:(congruence) N) as K. clear - B K T Z. assert (0 < (1 - t) * turn m w u) by nra. assert (0 <= t * turn m w v) by nra. lra.
Qed.
Definition strictly_convex (vs : list p2) : Prop := forall a b c, triple vs a b c -> 0 < turn a b c.
Lemma ccw_strict vs : ccw_polygon vs -> strictly_convex vs.
Proof.
  intros CC a b c TR. pose proof (triple_ccw vs a b c CC TR) as G. destruct (Rle_lt_or_eq_dec _ _ G) as [K|K]; [exact K|exfalso]. symmetry in K. pose proof CC as (ND & _). destruct TR as (l1 & l2 & l3 & l4 & E).
  assert (IA : In a vs) by (rewrite E; apply in_or_app; right; now left). assert (IB : In b vs) by (rewrite E; apply in_or_app; right; right; apply in_or_app; right; now left). assert (IC : In c vs) by (rewrite E; apply in_or_app; right; right; apply in_or_app; right; right; apply in_or_app; right; now left).
  rewrite E in ND. apply NoDup_remove_2 in ND as NA. assert (AB : a <> b) by (intros ->; apply NA; apply in_or_app; right; apply in_or_app; right; now left). assert (AC : a <> c) by (intros ->; apply NA; apply in_or_app; right; apply in_or_app; right; right; apply in_or_app; right; now left).
  assert (BC : b <> c). { intros ->. replace (l1 ++ a :: l2 ++ c :: l3 ++ c :: l4) with ((l1 ++ a :: l2) ++ c :: l3 ++ c :: l4) in ND by (rewrite <- app_assoc; reflexivity). apply NoDup_remove_2 in ND. apply ND. apply in_or_app. right. apply in_or_app. right. now left. }
  destruct (collinear_mid a b c AB BC AC K) as (t & T & [M|[M|M]]); revert M; [apply (not_between vs)|apply (not_between vs)|apply (not_between vs)]; auto.
Qed.
Lemma triple_cons vs v a b c : triple vs a b c -> triple (v :: vs) a b c.
Proof. intros (l1 & l2 & l3 & l4 & ->). now exists (v :: l1), l2, l3, l4. Qed.
Lemma strict_skip v0 v1 rest : strictly_convex (v0 :: v1 :: rest) -> strictly_convex (v0 :: rest).
Proof.
  intros H a b c (l1 & l2 & l3 & l4 & E). destruct l1 as [|x l1]; cbn [app] in E; injection E as E0 E; [subst a; apply H; exists [], (v1 :: l2), l3, l4; cbn; now rewrite E|]. subst x. apply H. exists (v0 :: v1 :: l1), l2, l3, l4. cbn. now rewrite E.
Qed.
(** A segment strictly to the left of the line from a to b does not meet the segment from a to b. *)
Lemma left_no_hit (a b x y : p2) : 0 < turn a b x -> 0 < turn a b y -> IntersectSegSeg2D a b x y = false.
Proof.
  intros X Y. unfold IntersectSegSeg2D, IntersectLineLine2D. cbv zeta. rewrite Abs_R. rsimpl. destruct (Rltb_spec (Rabs ((y2 y - y2 x) * (x2 b - x2 a) - (x2 y - x2 x) * (y2 b - y2 a))) (1 / 10000)) as [SM|SM]; [reflexivity|]. cbn [x2 y2].
  set (det := (y2 y - y2 x) * (x2 b - x2 a) - (x2 y - x2 x) * (y2 b - y2 a)) in *. set (v := (x2 b - x2 a) * (y2 a - y2 x) - (y2 b - y2 a) * (x2 a - x2 x)).
  assert (V : v = - turn a b x) by (unfold v, turn, area2, mi; cbn [x2 y2]; ring). assert (D : det = turn a b y - turn a b x) by (unfold det, turn, area2, mi; cbn [x2 y2]; ring). rewrite V. rewrite D in *.
  destruct (Rleb_spec 0 (- turn a b x * (1 / (turn a b y - turn a b x)))) as [A|A]; [|now rewrite !andb_false_r]. destruct (Rleb_spec (- turn a b x * (1 / (turn a b y - turn a b x))) 1) as [B|B]; [exfalso|now rewrite !andb_false_r].
  set (p := turn a b x) in *. set (q := turn a b y) in *. clearbody p q. clear - X Y A B SM. destruct (Req_dec q p) as [C|C]; [rewrite C, Rminus_diag_eq, Rabs_R0 in SM by reflexivity; lra|].
  set (r := 1 / (q - p)) in *. assert (RE : r * (q - p) = 1) by (unfold r; field; lra). clearbody r. assert (RN : r <= 0) by nra. assert (r * q <= 0) by nra. nra.
Qed.
Lemma OrientedCCW_R (a b c : p2) : OrientedCCW a b c = Rleb 0 (turn a b c).
Proof. unfold OrientedCCW. rsimpl. replace ((x2 a - x2 c) * (y2 b - y2 c) - (y2 a - y2 c) * (x2 b - x2 c)) with (turn a b c) by (unfold turn, area2, mi; cbn [x2 y2]; ring). reflexivity. Qed.
(** The triangles of the fan from the first vertex. *)
Fixpoint fan (v0 v : p2) (rest : list p2) : list (p2 * p2 * p2) := match rest with [] => [] | w :: r => (v0, v, w) :: fan v0 w r end.
Section Fan.
  Context (E : p2 -> pt) (c : p2 -> p2).
  Let f (q : p2) := (c q, E q).
  Definition tri_of (x : p2 * p2 * p2) : triangle R := let '(a, b, d) := x in Tri (E a) (E b) (E d).
  Lemma ear_fan v0 : forall rest v1 fuel n t, strictly_convex (map c (v0 :: v1 :: rest)) -> (2 <= length rest)%nat -> (length rest <= fuel + 1)%nat -> n = 0%nat ->
    exists a b d, earLoop fuel (map f (v0 :: v1 :: rest)) 0 1 2 n t = (map f [a; b; d], t ++ map tri_of (removelast (fan v0 v1 rest))) /\ last (fan v0 v1 rest) (v0, v0, v0) = (a, b, d).
  Proof.
    induction rest as [|v2' rest IH]; intros v1 fuel n t SC L F ->; [cbn in L; lia|]. destruct rest as [|v3 rest]; [cbn in L; lia|]. destruct fuel as [|fuel]; [cbn in F; lia|].
    assert (STEP : earLoop (S fuel) (map f (v0 :: v1 :: v2' :: v3 :: rest)) 0 1 2 0 t = earLoop fuel (map f (v0 :: v2' :: v3 :: rest)) 0 1 2 0 (t ++ [Tri (E v0) (E v1) (E v2')])).
    { change (earLoop (S fuel) (map f (v0 :: v1 :: v2' :: v3 :: rest)) 0 1 2 0 t) with (if OrientedCCW (c v0) (c v1) (c v2') && IsAnEar (map fst (map f (v0 :: v1 :: v2' :: v3 :: rest))) 0 2 then earLoop fuel (map f (v0 :: v2' :: v3 :: rest)) 0 1 2 0 (t ++ [Tri (E v0) (E v1) (E v2')]) else earLoop fuel (map f (v0 :: v1 :: v2' :: v3 :: rest)) 1 2 (Nat.modulo 3 (length (map f (v0 :: v1 :: v2' :: v3 :: rest)))) 1 t).
      assert (O : OrientedCCW (c v0) (c v1) (c v2') = true) by (rewrite OrientedCCW_R; apply Rleb_true; left; apply SC; now exists [], [], [], (map c (v3 :: rest))). rewrite O. cbn [andb].
      assert (EAR : IsAnEar (map fst (map f (v0 :: v1 :: v2' :: v3 :: rest))) 0 2 = true); [|now rewrite EAR].
      rewrite map_map. change (map (fun x => fst (f x)) (v0 :: v1 :: v2' :: v3 :: rest)) with (map c (v0 :: v1 :: v2' :: v3 :: rest)). change (negb (chainHit (c v0) (c v2') (c v3) (map c rest)) = true). apply negb_true_iff.
      assert (LEFT : forall w, In w (v3 :: rest) -> 0 < turn (c v0) (c v2') (c w)) by (intros w I; apply in_split in I as (l3 & l4 & I); apply SC; exists [], [c v1], (map c l3), (map c l4); cbn [map app]; change (c v3 :: map c rest) with (map c (v3 :: rest)); rewrite I, map_app; reflexivity).
      clear - LEFT. revert v3 LEFT. induction rest as [|w rest IH]; intros v3 LEFT; [reflexivity|]. cbn [map chainHit]. rewrite left_no_hit by (apply LEFT; cbn; auto). apply IH. intros z I. apply LEFT. now right. }
    rewrite STEP. cbn [map] in SC. apply strict_skip in SC. destruct rest as [|v4 rest].
    - exists v0, v2', v3. split; [|reflexivity]. destruct fuel; reflexivity.
    - destruct (IH v2' fuel 0%nat (t ++ [Tri (E v0) (E v1) (E v2')]) SC ltac:(cbn; lia) ltac:(cbn in *; lia) eq_refl) as (a & b & d & G1 & G2). exists a, b, d. split.
      + rewrite G1. f_equal. rewrite <- app_assoc. reflexivity.
      + rewrite <- G2. reflexivity.
  Qed.
End Fan.
Lemma fan_last v0 : forall rest v, rest <> [] -> fan v0 v rest = removelast (fan v0 v rest) ++ [last (fan v0 v rest) (v0, v0, v0)].
Proof. intros rest v N. apply app_removelast_last. destruct rest; [easy|discriminate]. Qed.
Lemma fan_in v0 : forall rest v a b c, In (a, b, c) (fan v0 v rest) <-> a = v0 /\ In (b, c) (path v rest).
Proof.
  induction rest as [|w r IH]; intros v a b c; cbn [fan path In]; [tauto|]. rewrite IH. split; [intros [E|(-> & I)]; [injection E as <- <- <-; auto|auto]|]. intros (-> & [E|I]); [injection E as <- <-; auto|auto].
Qed.
(** A point to the left of v0 -> v and to the right of v0 -> last is between two neighbours. *)
Lemma fan_find (g : p2 -> R) : forall rest v, rest <> [] -> 0 <= g v -> g (last rest v) <= 0 -> exists a b, In (a, b) (path v rest) /\ 0 <= g a /\ g b <= 0.
Proof.
  induction rest as [|w r IH]; intros v N A B; [easy|]. destruct (Rle_dec (g w) 0) as [K|K]; [exists v, w; cbn; auto|]. rewrite last_shift in B. destruct r as [|x r]; [cbn in B; lra|]. destruct (IH w) as (a & b & I & GA & GB); [discriminate|lra|exact B|]. exists a, b. split; [now right|auto].
Qed.
Lemma bary2 (a b c q : p2) : 0 < turn a b c -> q = pl (sc (turn b c q / turn a b c) a) (pl (sc (turn c a q / turn a b c) b) (sc (turn a b q / turn a b c) c)).
Proof. intros T. unfold pl, sc. apply v2_ext; cbn [x2 y2]; apply (Rmult_eq_reg_r (turn a b c)); try lra; unfold Rdiv; field_simplify; try lra; unfold turn, area2, mi; cbn [x2 y2]; ring. Qed.
Theorem C94_convex (o U V : pt) (q0 q1 : p2) (rest : list p2) : let qs := q0 :: q1 :: rest in frame U V -> spans qs -> eps6 < dst q0 q1 -> ccw_polygon qs ->
  Poly_Triangulate (map (embed o U V) qs) = map (tri_of (embed o U V)) (fan q0 q1 rest) /\ length (Poly_Triangulate (map (embed o U V) qs)) = (length qs - 2)%nat /\
  (forall a b c, In (a, b, c) (fan q0 q1 rest) -> 0 < turn a b c) /\ forall q, in_hull2 qs q <-> exists t, In t (Poly_Triangulate (map (embed o U V) qs)) /\ in_triangle t (embed o U V q).
Proof.
  intros qs FR SP L CCW. destruct (setup o U V q0 q1 rest FR SP L) as (s & _ & S1 & UE & PL & BU & BV & C1). fold qs in PL, BU, BV, C1. specialize (C1 CCW). subst s. set (e := sc (/ dst q0 q1) (mi q1 q0)) in *.
  assert (LEN : (3 <= length qs)%nat) by (destruct SP as (a & b & c & (l1 & l2 & l3 & l4 & E) & _); fold qs in E; rewrite E; rewrite !app_length; cbn; rewrite !app_length; cbn; rewrite !app_length; cbn; lia).
  assert (SC : strictly_convex qs) by now apply ccw_strict.
  assert (TR : Poly_Triangulate (map (embed o U V) qs) = map (tri_of (embed o U V)) (fan q0 q1 rest)).
  { destruct rest as [|q2 [|q3 r]]; [cbn in LEN; lia|reflexivity|]. set (ps := map (embed o U V) qs) in *.
    pose proof (to2D_R o U V q0 q1 (q2 :: q3 :: r) 1 FR BU BV) as TO. fold qs e in TO. fold ps in TO.
    assert (F : Poly_Triangulate ps = let '(vs, t) := earLoop ((length ps + 1) * (length ps + 1)) (combine (Poly_To2D ps) ps) 0 1 2 0 [] in match map snd vs with [a; b; c] => t ++ [Tri a b c] | _ => t end) by reflexivity.
    assert (CB : combine (Poly_To2D ps) ps = map (fun q => (coords 1 e q0 q, embed o U V q)) qs) by (rewrite TO; unfold ps; clear; induction qs as [|a l IH]; [reflexivity|]; cbn; now rewrite IH).
    rewrite F, CB. clear F.
    assert (SCM : strictly_convex (map (coords 1 e q0) qs)).
    { intros a b c (l1 & l2 & l3 & l4 & E). apply map_eq_app in E as (m1 & n1 & E1 & <- & E). apply map_eq_cons in E as (a' & n2 & -> & <- & E). apply map_eq_app in E as (m2 & n3 & -> & <- & E). apply map_eq_cons in E as (b' & n4 & -> & <- & E). apply map_eq_app in E as (m3 & n5 & -> & <- & E). apply map_eq_cons in E as (c' & n6 & -> & <- & E).
      rewrite (coords_turn 1 e q0 UE), Rmult_1_l. apply SC. now exists m1, m2, m3, n6. }
    destruct (ear_fan (embed o U V) (coords 1 e q0) q0 (q2 :: q3 :: r) q1 ((length ps + 1) * (length ps + 1)) 0 [] SCM ltac:(cbn; lia) ltac:(unfold ps; rewrite map_length; cbn; lia) eq_refl) as (a & b & c & G1 & G2).
    change (map (fun q => (coords 1 e q0 q, embed o U V q)) qs) with (map (fun q => (coords 1 e q0 q, embed o U V q)) (q0 :: q1 :: q2 :: q3 :: r)). rewrite G1. pose proof (fan_last q0 (q2 :: q3 :: r) q1 ltac:(discriminate)) as FLS. rewrite G2 in FLS. apply (f_equal (map (tri_of (embed o U V)))) in FLS. rewrite map_app in FLS. exact (eq_sym FLS). }
  assert (FL : forall r v, length (fan q0 v r) = length r) by (induction r as [|w r IH]; intros v; [reflexivity|]; cbn; now rewrite IH).
  assert (POS : forall a b c, In (a, b, c) (fan q0 q1 rest) -> 0 < turn a b c).
  { intros a b c I. apply fan_in in I as (-> & I). apply path_iff in I as (l1 & l2 & E). apply SC. exists [], l1, [], l2. cbn [app]. unfold qs. now rewrite E. }
  split; [exact TR|]. split; [rewrite TR, map_length, FL; cbn; lia|]. split; [exact POS|]. intros q. rewrite TR. split.
  - intros H. pose proof (proj1 (C83_halfplanes qs q CCW LEN) H) as HP.
    destruct (fan_find (fun w => turn q0 w q) rest q1) as (a & b & I & GA & GB).
    + intros ->. cbn in LEN. lia.
    + apply HP. unfold qs. cbn [polygon_edges path]. right. now left.
    + assert (K : 0 <= turn (last rest q1) q0 q) by (apply HP; unfold qs; cbn [polygon_edges]; rewrite !last_shift; left; reflexivity). unfold turn, area2, mi in *. cbn [x2 y2] in *. lra.
    + exists (Tri (embed o U V q0) (embed o U V a) (embed o U V b)). split; [apply in_map_iff; exists (q0, a, b); split; [reflexivity|apply fan_in; auto]|].
      assert (T : 0 < turn q0 a b) by (apply POS, fan_in; auto). assert (AB : 0 <= turn a b q) by (apply HP; unfold qs; cbn [polygon_edges path]; right; right; exact I).
      assert (TI : 0 < / turn q0 a b) by now apply Rinv_0_lt_compat. exists (turn a b q / turn q0 a b), (turn b q0 q / turn q0 a b), (turn q0 a q / turn q0 a b).
      assert (B0 : 0 <= turn b q0 q) by (unfold turn, area2, mi in *; cbn [x2 y2] in *; lra). split; [apply Rmult_le_pos; lra|]. split; [apply Rmult_le_pos; lra|]. split; [apply Rmult_le_pos; lra|].
      assert (SUM : turn a b q / turn q0 a b + turn b q0 q / turn q0 a b + turn q0 a q / turn q0 a b = 1) by (apply (Rmult_eq_reg_r (turn q0 a b)); [|lra]; field_simplify; [|lra]; unfold turn, area2, mi; cbn [x2 y2]; ring). split; [exact SUM|].
      pose proof (bary2 q0 a b q T) as BQ. set (u := turn a b q / turn q0 a b) in *. set (v := turn b q0 q / turn q0 a b) in *. set (w := turn q0 a q / turn q0 a b) in *. clearbody u v w. rewrite BQ. cbn [tri_a tri_b tri_c]. replace u with (1 - v - w) by lra. unfold embed, pl, sc, plus, scale. apply vec_ext; cbn [vx vy vz x2 y2]; ring.
  - intros (t & I & (u & v & w & U0 & V0 & W0 & SUM & E)). apply in_map_iff in I as (((a & b) & c) & <- & I). cbn [tri_of tri_a tri_b tri_c] in E.
    assert (EQ : q = pl (sc u a) (pl (sc v b) (sc w c))).
    { apply dst_zero. rewrite <- (emb_dist o U V FR), E. unfold dist. replace (minus _ _) with origin; [unfold norm, dot, origin; cbn; rewrite Rmult_0_l, !Rplus_0_l; apply sqrt_0|]. replace u with (1 - v - w) by lra. unfold embed, pl, sc, plus, scale, minus, origin. apply vec_ext; cbn [vx vy vz x2 y2]; ring. }
    apply fan_in in I as (-> & I). assert (IB : In b qs /\ In c qs) by (apply path_iff in I as (l1 & l2 & EE); unfold qs; rewrite EE; split; right; apply in_or_app; right; cbn; auto).
    apply (C83_halfplanes qs q CCW LEN). intros x y XY. pose proof CCW as (_ & _ & LEFT). pose proof (LEFT x y q0 XY (or_introl eq_refl)). pose proof (LEFT x y b XY (proj1 IB)). pose proof (LEFT x y c XY (proj2 IB)).
    replace (turn x y q) with (u * turn x y q0 + v * turn x y b + w * turn x y c); [apply Rplus_le_le_0_compat; [apply Rplus_le_le_0_compat|]; now apply Rmult_le_pos|]. rewrite EQ. replace u with (1 - v - w) by lra. unfold turn, area2, pl, sc, mi. cbn [x2 y2]. ring.
Qed.
(** ** The closest point of a convex polygon. *)
Lemma fold_near (p : pt) : forall l (b : pt) d, d = dot (minus b p) (minus b p) ->
  let x := fst (fold_left (fun best q => let d := DistanceSq q p in if Rltb d (snd best) then (q, d) else best) l (b, d)) in In x (b :: l) /\ forall q, In q (b :: l) -> dist x p <= dist q p.
Proof.
  assert (LE : forall a b : pt, dot (minus a p) (minus a p) <= dot (minus b p) (minus b p) -> dist a p <= dist b p) by (intros a b H; unfold dist, norm; now apply sqrt_le_1_alt).
  induction l as [|c l IH]; intros b d ->; cbn [fold_left]; [cbn [fst]; split; [now left|]; intros q [<-|[]]; apply Rle_refl|]. cbv zeta. cbn [snd]. change (DistanceSq c p) with (dot (minus c p) (minus c p)).
  destruct (Rltb_spec (dot (minus c p) (minus c p)) (dot (minus b p) (minus b p))) as [K|K].
  - destruct (IH c _ eq_refl) as (A & B). cbv zeta in A, B. split; [right; exact A|]. intros q [<-|Q]; [|now apply B]. apply Rle_trans with (dist c p); [apply B; now left|apply LE; lra].
  - destruct (IH b _ eq_refl) as (A & B). cbv zeta in A, B. split; [destruct A as [A|A]; [left; exact A|right; right; exact A]|]. intros q [<-|[<-|Q]]; [apply B; now left| |apply B; now right]. apply Rle_trans with (dist b p); [apply B; now left|apply LE; lra].
Qed.
Theorem C94_closest (o U V : pt) (q0 q1 : p2) (rest : list p2) (p : pt) : let qs := q0 :: q1 :: rest in frame U V -> spans qs -> eps6 < dst q0 q1 -> ccw_polygon qs ->
  exists x, Poly_ClosestPoint (map (embed o U V) qs) p = Some x /\ nearest (fun z => exists q, in_hull2 qs q /\ z = embed o U V q) p x /\ Poly_Distance (map (embed o U V) qs) p = Some (dist x p).
Proof.
  intros qs FR SP L CCW. destruct (C94_convex o U V q0 q1 rest FR SP L CCW) as (TR & LT & POS & COV). fold qs in TR, LT, COV. set (ts := Poly_Triangulate (map (embed o U V) qs)) in *.
  assert (LEN : (3 <= length qs)%nat) by (destruct SP as (a & b & c & (l1 & l2 & l3 & l4 & E) & _); fold qs in E; rewrite E; rewrite !app_length; cbn; rewrite !app_length; cbn; rewrite !app_length; cbn; lia).
  assert (PT : forall t, In t ts -> nearest (in_triangle t) p (Tri_ClosestPoint t p)).
  { intros t I. apply C47_point. rewrite TR in I. apply in_map_iff in I as (((a & b) & c) & <- & I). apply POS in I. intros u v E. cbn [tri_of tri_a tri_b tri_c] in E. rewrite !(emb_minus o U V) in E.
    assert (W : dir U V (pl (sc u (mi b a)) (sc v (mi c a))) = origin) by (rewrite <- E; unfold dir, pl, sc, plus, scale; apply vec_ext; cbn [vx vy vz x2 y2]; ring).
    assert (N0 : dt (pl (sc u (mi b a)) (sc v (mi c a))) (pl (sc u (mi b a)) (sc v (mi c a))) = 0) by (rewrite <- (dir_dot U V FR), W; unfold dot, origin; cbn; ring).
    assert (Z : x2 (pl (sc u (mi b a)) (sc v (mi c a))) = 0 /\ y2 (pl (sc u (mi b a)) (sc v (mi c a))) = 0) by (unfold dt in N0; split; nra). destruct Z as (Z1 & Z2). unfold turn, area2, pl, sc, mi in *. cbn [x2 y2] in *.
    set (X := x2 b - x2 a) in *. set (Y := y2 b - y2 a) in *. set (P := x2 c - x2 a) in *. set (Q := y2 c - y2 a) in *. clearbody X Y P Q. clear - I Z1 Z2.
    split; apply (Rmult_eq_reg_r (X * Q - Y * P)); try lra; [transitivity (Q * (u * X + v * P) - P * (u * Y + v * Q)); [ring|rewrite Z1, Z2; ring]|transitivity (X * (u * Y + v * Q) - Y * (u * X + v * P)); [ring|rewrite Z1, Z2; ring]]. }
  assert (F : Poly_ClosestPoint (map (embed o U V) qs) p = match map (fun t => Tri_ClosestPoint t p) ts with [] => None | c :: r => Some (fst (fold_left (fun best q => let d := DistanceSq q p in if Rltb d (snd best) then (q, d) else best) r (c, DistanceSq c p))) end) by reflexivity.
  clearbody ts. destruct ts as [|t0 ts']; [exfalso; clear - LT LEN; cbn [length] in LT; lia|]. cbn [map] in F. destruct (fold_near p (map (fun t => Tri_ClosestPoint t p) ts') (Tri_ClosestPoint t0 p) _ eq_refl) as (A & B). cbv zeta in A, B.
  set (x := fst _) in A, B. exists x. assert (FX : Poly_ClosestPoint (map (embed o U V) qs) p = Some x) by exact F. split; [exact FX|]. split; [|unfold Poly_Distance; rewrite FX; reflexivity].
  change (Tri_ClosestPoint t0 p :: map (fun t => Tri_ClosestPoint t p) ts') with (map (fun t => Tri_ClosestPoint t p) (t0 :: ts')) in A, B. split.
  - apply in_map_iff in A as (t & <- & I). destruct (PT t I) as (IN & _). pose proof I as I'. rewrite TR in I'. apply in_map_iff in I' as (((a & b) & c) & <- & I').
    destruct IN as (u & v & w & U0 & V0 & W0 & SUM & E). cbn [tri_of tri_a tri_b tri_c] in E. 
    assert (EQ : Tri_ClosestPoint (tri_of (embed o U V) (a, b, c)) p = embed o U V (pl (sc u a) (pl (sc v b) (sc w c)))) by (cbn [tri_of] in E |- *; rewrite E; replace u with (1 - v - w) by lra; unfold embed, pl, sc, plus, scale; apply vec_ext; cbn [vx vy vz x2 y2]; ring).
    exists (pl (sc u a) (pl (sc v b) (sc w c))). split; [|exact EQ]. apply COV. exists (tri_of (embed o U V) (a, b, c)). split; [exact I|]. rewrite <- EQ. apply (PT _ I).
  - intros z (q & Q & ->). apply COV in Q as (t & I & IT). apply Rle_trans with (dist (Tri_ClosestPoint t p) p); [apply B; now apply (in_map (fun t => Tri_ClosestPoint t p))|]. now apply (PT t I).
Qed.
(** ** Any simple or non-simple polygon without nearly collinear triples of vertices: every clipped triangle is oriented like the normal, and
    if n-2 triangles come out their signed areas add up to the signed area of the polygon. *)
Fixpoint tri_sum (ts : list (p2 * p2 * p2)) : R := match ts with [] => 0 | (a, b, c) :: r => turn a b c / 2 + tri_sum r end.
Lemma tri_sum_app l1 l2 : tri_sum (l1 ++ l2) = tri_sum l1 + tri_sum l2.
Proof. induction l1 as [|((a & b) & c) l1 IH]; cbn; [ring|]. rewrite IH. ring. Qed.
Lemma area_clip l1 a b c l2 : signed_area (l1 ++ a :: b :: c :: l2) = signed_area (l1 ++ a :: c :: l2) + turn a b c / 2.
Proof.
  unfold signed_area. rewrite <- !edges_rot. assert (G : forall x z, sum_edges area2 (path x (l1 ++ a :: b :: c :: l2 ++ [z])) = sum_edges area2 (path x (l1 ++ a :: c :: l2 ++ [z])) + turn a b c).
  { intros x z. rewrite !path_app, !sum_app. cbn [path sum_edges]. unfold turn, area2, mi. cbn [x2 y2]. ring. }
  destruct l1 as [|h l1].
  - cbn [app edges_from_first]. cbn [path sum_edges]. unfold turn, area2, mi. cbn [x2 y2]. field.
  - cbn [app edges_from_first]. specialize (G h h). rewrite <- !app_assoc. cbn [app] in *. cbn [path sum_edges] in G. lra.
Qed.
Definition general_position (vs : list p2) : Prop := NoDup vs /\ forall a b c, In a vs -> In b vs -> In c vs -> a <> b -> b <> c -> a <> c -> 1 / 10000 <= Rabs (turn a b c).
Section Area.
  Context (E : p2 -> pt) (c : p2 -> p2) (s : R) (S : s = 1 \/ s = -1) (CT : forall x y z, turn (c x) (c y) (c z) = s * turn x y z).
  Let f (q : p2) := (c q, E q).
  Lemma abs_turn x y z : Rabs (turn (c x) (c y) (c z)) = Rabs (turn x y z).
  Proof. rewrite CT, Rabs_mult. destruct S as [ -> | -> ]; [rewrite Rabs_R1|rewrite (Rabs_left (-1)) by lra]; ring. Qed.
  (** Two segments sharing an end point. *)
  Lemma share_end (a b x : p2) : 1 / 10000 <= Rabs (turn a b x) -> IntersectSegSeg2D a b x b = true /\ IntersectSegSeg2D a b a x = true.
  Proof.
    intros H. assert (NZ : turn a b x <> 0) by (intros Z; rewrite Z, Rabs_R0 in H; lra). unfold IntersectSegSeg2D, IntersectLineLine2D. cbv zeta. rewrite !Abs_R. rsimpl. split.
    - replace ((y2 b - y2 x) * (x2 b - x2 a) - (x2 b - x2 x) * (y2 b - y2 a)) with (- turn a b x) by (unfold turn, area2, mi; cbn [x2 y2]; ring). rewrite Rabs_Ropp, (proj2 (Rltb_false _ _)) by exact H. cbn [x2 y2].
      replace ((x2 b - x2 x) * (y2 a - y2 x) - (y2 b - y2 x) * (x2 a - x2 x)) with (- turn a b x) by (unfold turn, area2, mi; cbn [x2 y2]; ring). replace ((x2 b - x2 a) * (y2 a - y2 x) - (y2 b - y2 a) * (x2 a - x2 x)) with (- turn a b x) by (unfold turn, area2, mi; cbn [x2 y2]; ring).
      replace (- turn a b x * (1 / - turn a b x)) with 1 by (field; exact NZ). rewrite !(proj2 (Rleb_true _ _)) by lra. reflexivity.
    - replace ((y2 x - y2 a) * (x2 b - x2 a) - (x2 x - x2 a) * (y2 b - y2 a)) with (turn a b x) by (unfold turn, area2, mi; cbn [x2 y2]; ring). rewrite (proj2 (Rltb_false _ _)) by exact H. cbn [x2 y2].
      replace ((x2 x - x2 a) * (y2 a - y2 a) - (y2 x - y2 a) * (x2 a - x2 a)) with 0 by ring. replace ((x2 b - x2 a) * (y2 a - y2 a) - (y2 b - y2 a) * (x2 a - x2 a)) with 0 by ring.
      rewrite !Rmult_0_l, !(proj2 (Rleb_true _ _)) by lra. reflexivity.
  Qed.
  Lemma nth_split' {A : Type} (l : list A) i x : nth_error l i = Some x -> exists l1 l2, l = l1 ++ x :: l2 /\ length l1 = i.
  Proof. apply nth_error_split. Qed.
  (** The part of the test that looks at the edges before the ear. *)
  Lemma IsAnEar_first (poly : list p2) i j (a b v z : p2) l r : poly = v :: l -> (forall d, last poly d = z) -> nth_error poly i = Some a -> nth_error poly j = Some b -> firstn i poly = v :: r -> IntersectSegSeg2D a b z v = true -> IsAnEar poly i j = false.
  Proof.
    intros HE L A B F SH. unfold IsAnEar. unfold p2 in *. rewrite A, B. rewrite HE at 1. rewrite L, F. cbn [chainHit]. rewrite SH. reflexivity.
  Qed.
  (** An ear that wraps around the end of the vertex list is never accepted. *)
  Lemma no_wrap ws i : general_position ws -> (4 <= length ws)%nat -> (i < length ws)%nat -> IsAnEar (map c ws) i (Nat.modulo (i + 2) (length ws)) = true -> (i + 2 < length ws)%nat.
  Proof.
    intros (ND & GP) L4 LI EAR. destruct (Nat.lt_ge_cases (i + 2) (length ws)) as [K|K]; [exact K|exfalso].
    destruct (exists_last (l := ws)) as (m & z & EW); [intros ->; cbn in L4; lia|]. assert (LW : length ws = (length m + 1)%nat) by (rewrite EW, app_length; cbn; lia).
    destruct m as [|w0 [|w1 m]]; [cbn in LW; lia|cbn in LW; lia|]. assert (DIFF : w0 <> w1 /\ w0 <> z /\ w1 <> z).
    { rewrite EW in ND. cbn [app] in ND. apply NoDup_cons_iff in ND as (N0 & ND). apply NoDup_cons_iff in ND as (N1 & _). split; [intros ->; apply N0; now left|]. split; [intros ->; apply N0; right; apply in_or_app; right; now left|intros ->; apply N1; apply in_or_app; right; now left]. }
    assert (I0 : In w0 ws) by (rewrite EW; now left). assert (I1 : In w1 ws) by (rewrite EW; right; now left). assert (IZ : In z ws) by (rewrite EW; apply in_or_app; right; now left).
    assert (LASTW : forall v, last (map c ws) v = c z) by (intros v; rewrite EW, map_app; apply last_last).
    assert (FN : exists r, firstn i (map c ws) = c w0 :: r) by (rewrite EW; cbn [app map]; destruct i as [|i]; [lia|]; cbn [firstn]; eexists; reflexivity). destruct FN as (r & FN).
    assert (HD : map c ws = c w0 :: map c (w1 :: m ++ [z])) by (rewrite EW; reflexivity).
    destruct (Nat.eq_dec (i + 2) (length ws)) as [E2|E2].
    - rewrite E2, Nat.mod_same in EAR by lia. destruct (nth_error ws i) as [a'|] eqn:EA'; [|revert EA'; apply nth_error_Some; exact LI]. assert (EA : nth_error (map c ws) i = Some (c a')) by (rewrite nth_error_map, EA'; reflexivity).
      assert (EB : nth_error (map c ws) 0 = Some (c w0)) by (rewrite EW; reflexivity).
      assert (IA : In a' ws) by (eapply nth_error_In; exact EA'). assert (NA : a' <> w0 /\ a' <> z).
      { split; intros ->; [assert (i = 0%nat) by (apply (proj1 (NoDup_nth_error ws) ND); [lia|rewrite EA', EW; reflexivity]); lia|].
        assert (i = length (w0 :: w1 :: m)); [|lia]. apply (proj1 (NoDup_nth_error ws) ND); [lia|]. rewrite EA', EW, nth_error_app2, Nat.sub_diag by lia. reflexivity. }
      destruct (share_end (c a') (c w0) (c z)) as (SH & _); [rewrite abs_turn; apply GP; auto; [apply NA|apply DIFF|apply NA]|]. rewrite (IsAnEar_first _ _ _ _ _ _ _ _ _ HD LASTW EA EB FN SH) in EAR. discriminate EAR.
    - assert (E1 : i = (length ws - 1)%nat) by lia. replace ((i + 2) mod length ws)%nat with 1%nat in EAR by (replace (i + 2)%nat with (1 + 1 * length ws)%nat by lia; rewrite Nat.mod_add by lia; symmetry; apply Nat.mod_small; lia).
      assert (EA : nth_error (map c ws) i = Some (c z)) by (rewrite EW, map_app, nth_error_app2; rewrite map_length; [replace (i - length (w0 :: w1 :: m))%nat with 0%nat by lia; reflexivity|lia]).
      assert (EB : nth_error (map c ws) 1 = Some (c w1)) by (rewrite EW; reflexivity).
      destruct (share_end (c z) (c w1) (c w0)) as (_ & SH); [rewrite abs_turn; apply GP; auto; [intros Q; now apply (proj2 (proj2 DIFF))|intros Q; now apply (proj1 DIFF)|intros Q; now apply (proj1 (proj2 DIFF))]|]. rewrite (IsAnEar_first _ _ _ _ _ _ _ _ _ HD LASTW EA EB FN SH) in EAR. discriminate EAR.
  Qed.
  Lemma gp_remove l1 x l2 : general_position (l1 ++ x :: l2) -> general_position (l1 ++ l2).
  Proof. intros (ND & GP). split; [now apply NoDup_remove_1 in ND|]. intros a b d A B D. apply GP; [revert A|revert B|revert D]; rewrite !in_app_iff; cbn; tauto. Qed.
  Lemma ear_area : forall fuel ws i n t, general_position ws -> (3 <= length ws)%nat -> (i < length ws)%nat ->
    exists ws' ts, earLoop fuel (map f ws) i (Nat.modulo (i + 1) (length ws)) (Nat.modulo (i + 2) (length ws)) n t = (map f ws', t ++ map (tri_of E) ts) /\ (3 <= length ws')%nat /\ incl ws' ws /\ signed_area ws = tri_sum ts + signed_area ws' /\
      (length ts + length ws' = length ws)%nat /\ forall x y z, In (x, y, z) ts -> In x ws /\ In y ws /\ In z ws /\ 0 < s * turn x y z.
  Proof.
    induction fuel as [|fuel IH]; intros ws i n t GP L3 LI; [exists ws, []; cbn; rewrite app_nil_r; repeat split; auto; try contradiction; [apply incl_refl|ring]|].
    assert (DONE : exists ws' ts, (map f ws, t) = (map f ws', t ++ map (tri_of E) ts) /\ (3 <= length ws')%nat /\ incl ws' ws /\ signed_area ws = tri_sum ts + signed_area ws' /\ (length ts + length ws' = length ws)%nat /\ forall x y z, In (x, y, z) ts -> In x ws /\ In y ws /\ In z ws /\ 0 < s * turn x y z) by (exists ws, []; cbn; rewrite app_nil_r; repeat split; auto; try contradiction; [apply incl_refl|ring]).
    set (j := Nat.modulo (i + 1) (length ws)). set (k := Nat.modulo (i + 2) (length ws)). cbn [earLoop]. rewrite map_length. destruct (Nat.ltb_spec 3 (length ws)) as [L4|L4]; cbn [andb]; [|exact DONE]. destruct (Nat.ltb_spec n (length ws)) as [Ln|Ln]; [|exact DONE].
    assert (LJ : (j < length ws)%nat) by (apply Nat.mod_upper_bound; lia). assert (LK : (k < length ws)%nat) by (apply Nat.mod_upper_bound; lia). rewrite !nth_error_map.
    destruct (nth_error ws i) as [a|] eqn:EA; [|exact DONE]. destruct (nth_error ws j) as [b|] eqn:EB; [|exact DONE]. destruct (nth_error ws k) as [d|] eqn:EC; [|exact DONE]. cbn [option_map]. unfold f at 1 2 3. cbn [fst].
    rewrite map_map. change (map (fun x => fst (f x)) ws) with (map c ws).
    destruct (OrientedCCW (c a) (c b) (c d) && IsAnEar (map c ws) i k) eqn:EAR.
    - apply andb_prop in EAR as (OR & EAR). pose proof (no_wrap ws i GP ltac:(lia) LI EAR) as LW. assert (Ej : j = (i + 1)%nat) by (unfold j; apply Nat.mod_small; lia). assert (Ek : k = (i + 2)%nat) by (unfold k; apply Nat.mod_small; lia). clearbody j k.
      destruct (nth_error_split _ _ EA) as (l1 & r1 & W1 & LL). rewrite Ej, W1, nth_error_app2 in EB by lia. replace (i + 1 - length l1)%nat with 1%nat in EB by lia. destruct r1 as [|b' r1]; [discriminate|]. cbn in EB. injection EB as ->.
      rewrite Ek, W1, nth_error_app2 in EC by lia. replace (i + 2 - length l1)%nat with 2%nat in EC by lia. destruct r1 as [|d' l2]; [discriminate|]. cbn in EC. injection EC as ->.
      assert (RM : removeAt (map f ws) j = map f (l1 ++ a :: d :: l2)).
      { unfold removeAt. rewrite W1, !map_app, Ej. cbn [map]. replace (i + 1)%nat with (length (map f l1) + 1)%nat by (rewrite map_length; lia). rewrite firstn_app_2. replace (length (map f l1) + 1 + 1)%nat with (length (map f l1) + 2)%nat by lia. rewrite skipn_app. rewrite (skipn_all2 (map f l1)) by lia. replace (length (map f l1) + 2 - length (map f l1))%nat with 2%nat by lia. cbn [firstn skipn app]. now rewrite <- app_assoc. }
      assert (GP' : general_position (l1 ++ a :: d :: l2)) by (replace (l1 ++ a :: d :: l2) with ((l1 ++ [a]) ++ d :: l2) by (rewrite <- app_assoc; reflexivity); apply (gp_remove (l1 ++ [a]) b (d :: l2)); rewrite <- app_assoc; cbn [app]; now rewrite <- W1).
      assert (LN : length (l1 ++ a :: d :: l2) = (length ws - 1)%nat) by (rewrite W1, !app_length; cbn; lia).
      assert (PT : 0 < s * turn a b d).
      { rewrite OrientedCCW_R in OR. apply Rleb_true in OR. rewrite CT in OR. destruct GP as (ND & GP). assert (NE : a <> b /\ b <> d /\ a <> d) by (rewrite W1 in ND; apply NoDup_remove_2 in ND as N0; apply NoDup_remove_1 in ND; apply NoDup_remove_2 in ND; rewrite in_app_iff in *; cbn in *; repeat split; intros ->; tauto).
        specialize (GP a b d). rewrite W1, !in_app_iff in GP. cbn in GP. specialize (GP ltac:(tauto) ltac:(tauto) ltac:(tauto) (proj1 NE) (proj1 (proj2 NE)) (proj2 (proj2 NE))). destruct (Rle_lt_or_eq_dec _ _ OR) as [Q|Q]; [exact Q|exfalso]. assert (TZ : turn a b d = 0) by (destruct S as [ -> | -> ]; lra). rewrite TZ, Rabs_R0 in GP. lra. }
      assert (SUB : incl (l1 ++ a :: d :: l2) ws) by (rewrite W1; intros x; rewrite !in_app_iff; cbn; tauto).
      assert (G : forall i', (i' < length (l1 ++ a :: d :: l2))%nat -> exists ws' ts, earLoop fuel (map f (l1 ++ a :: d :: l2)) i' (Nat.modulo (i' + 1) (length (l1 ++ a :: d :: l2))) (Nat.modulo (i' + 2) (length (l1 ++ a :: d :: l2))) 0 (t ++ [Tri (E a) (E b) (E d)]) = (map f ws', t ++ map (tri_of E) ts) /\ (3 <= length ws')%nat /\ incl ws' ws /\ signed_area ws = tri_sum ts + signed_area ws' /\ (length ts + length ws' = length ws)%nat /\ forall x y z, In (x, y, z) ts -> In x ws /\ In y ws /\ In z ws /\ 0 < s * turn x y z).
      { intros i' LI'. destruct (IH (l1 ++ a :: d :: l2) i' 0%nat (t ++ [Tri (E a) (E b) (E d)]) GP' ltac:(lia) LI') as (ws' & ts & G1 & G2 & G3 & G4 & G5 & G6). exists ws', ((a, b, d) :: ts). rewrite G1. split; [rewrite <- app_assoc; reflexivity|]. split; [exact G2|]. split; [intros x I; apply SUB; now apply G3|]. split; [cbn [tri_sum]; rewrite W1, area_clip, G4; ring|]. split; [cbn [length]; lia|].
        intros x y z [Q|Q]; [injection Q as <- <- <-; rewrite W1, !in_app_iff; cbn; tauto|]. apply G6 in Q as (X & Y & Z & P). auto. }
      cbv zeta. match goal with |- context [removeAt ?l ?n] => change (removeAt l n) with (removeAt (map f ws) j) end. rewrite RM. match goal with |- context [@length ?A (map f ?l)] => change (@length A (map f l)) with (length (map f l)) end. rewrite map_length. cbn [snd]. rewrite LN. destruct (Nat.ltb_spec 0 i) as [I0|I0].
      + specialize (G (i - 1)%nat ltac:(lia)). rewrite LN in G. replace ((i + (length ws - 1) - 1) mod (length ws - 1))%nat with (i - 1)%nat by (replace (i + (length ws - 1) - 1)%nat with (i - 1 + 1 * (length ws - 1))%nat by lia; rewrite Nat.mod_add by lia; symmetry; apply Nat.mod_small; lia).
        replace ((j + (length ws - 1) - 1) mod (length ws - 1))%nat with ((i - 1 + 1) mod (length ws - 1))%nat by (rewrite Ej; replace (i + 1 + (length ws - 1) - 1)%nat with (i - 1 + 1 + 1 * (length ws - 1))%nat by lia; rewrite Nat.mod_add by lia; reflexivity).
        replace ((k + (length ws - 1) - 1) mod (length ws - 1))%nat with ((i - 1 + 2) mod (length ws - 1))%nat by (rewrite Ek; replace (i + 2 + (length ws - 1) - 1)%nat with (i - 1 + 2 + 1 * (length ws - 1))%nat by lia; rewrite Nat.mod_add by lia; reflexivity). exact G.
      + destruct i as [|i]; [|exfalso; clear - I0; lia]. specialize (G 0%nat ltac:(lia)). rewrite LN in G. rewrite (Nat.mod_small (0 + 1)), (Nat.mod_small (0 + 2)) in G by lia. rewrite Ej, Ek. exact G.
    - destruct (IH ws j (n + 1)%nat t GP L3 LJ) as (ws' & ts & G1 & G2). exists ws', ts. split; [|exact G2]. rewrite <- G1. f_equal.
      + unfold j, k. rewrite Nat.add_mod_idemp_l by lia. f_equal. lia.
      + unfold j, k. rewrite !Nat.add_mod_idemp_l by lia. f_equal. lia.
  Qed.
End Area.
Theorem C94_area (o U V : pt) (q0 q1 : p2) (rest : list p2) : let qs := q0 :: q1 :: rest in frame U V -> spans qs -> eps6 < dst q0 q1 -> general_position qs ->
  exists s ts, Poly_NormalCCW (map (embed o U V) qs) = Some (scale s (cross U V)) /\ (s = 1 \/ s = -1) /\ Poly_Triangulate (map (embed o U V) qs) = map (tri_of (embed o U V)) ts /\
    (forall a b c, In (a, b, c) ts -> In a qs /\ In b qs /\ In c qs) /\ (forall a b c, In (a, b, c) (removelast ts) -> 0 < s * turn a b c) /\
    ((length ts < length qs - 2)%nat -> forall a b c, In (a, b, c) ts -> 0 < s * turn a b c) /\ (length ts = (length qs - 2)%nat -> tri_sum ts = signed_area qs).
Proof.
  intros qs FR SP L GP. destruct (setup o U V q0 q1 rest FR SP L) as (s & SS & S1 & UE & PL & BU & BV & _). fold qs in PL, BU, BV. set (e := sc (/ dst q0 q1) (mi q1 q0)) in *.
  assert (LEN : (3 <= length qs)%nat) by (destruct SP as (a & b & c & (l1 & l2 & l3 & l4 & E) & _); fold qs in E; rewrite E; rewrite !app_length; cbn; rewrite !app_length; cbn; rewrite !app_length; cbn; lia).
  exists s. assert (NO : Poly_NormalCCW (map (embed o U V) qs) = Some (scale s (cross U V))) by (unfold Poly_NormalCCW; unfold qs in PL |- *; rewrite PL; reflexivity).
  destruct rest as [|q2 [|q3 r]]; [cbn in LEN; lia| |].
  - exists [(q0, q1, q2)]. split; [exact NO|]. split; [exact SS|]. split; [reflexivity|]. split; [intros a b c [Q|[]]; injection Q as <- <- <-; unfold qs; cbn; tauto|]. split; [cbn [removelast]; intros a b c K; destruct K|]. split; [cbn; lia|]. intros _. unfold signed_area, qs, sum_edges, polygon_edges, path. cbn. unfold turn, area2, mi. cbn [x2 y2]. field.
  - set (ps := map (embed o U V) qs) in *. pose proof (to2D_R o U V q0 q1 (q2 :: q3 :: r) s FR BU BV) as TO. fold qs e in TO. fold ps in TO.
    assert (F : Poly_Triangulate ps = let '(vs, t) := earLoop ((length ps + 1) * (length ps + 1)) (combine (Poly_To2D ps) ps) 0 1 2 0 [] in match map snd vs with [a; b; c] => t ++ [Tri a b c] | _ => t end) by reflexivity.
    assert (CB : combine (Poly_To2D ps) ps = map (fun q => (coords s e q0 q, embed o U V q)) qs) by (rewrite TO; unfold ps; clear; induction qs as [|a l IH]; [reflexivity|]; cbn; now rewrite IH).
    rewrite F, CB. clear F.
    destruct (ear_area (embed o U V) (coords s e q0) s SS (coords_turn s e q0 UE) ((length ps + 1) * (length ps + 1)) qs 0 0 [] GP LEN ltac:(lia)) as (ws & ts & G1 & G2 & G3 & G4 & G5 & G6). rewrite (Nat.mod_small (0 + 1)), (Nat.mod_small (0 + 2)) in G1 by lia. cbn [Nat.add] in G1. rewrite G1. cbn [app]. rewrite map_map. cbn [snd].
    destruct ws as [|a [|b [|c [|d ws]]]]; try (cbn in G2; lia).
    + exists (ts ++ [(a, b, c)]). cbn [map]. split; [exact NO|]. split; [exact SS|]. split; [rewrite map_app; reflexivity|]. split.
      * intros x y z I. apply in_app_or in I as [I|[I|[]]]; [apply G6 in I; tauto|]. injection I as <- <- <-. split; [|split]; apply G3; cbn; auto.
      * split; [rewrite removelast_last; intros x y z I; now apply G6 in I|]. split; [rewrite app_length; cbn [length] in *; lia|]. intros _. rewrite tri_sum_app, G4. cbn [tri_sum]. f_equal. unfold signed_area, sum_edges, polygon_edges, path. cbn. unfold turn, area2, mi. cbn [x2 y2]. field.
    + exists ts. cbn [map]. split; [exact NO|]. split; [exact SS|]. split; [reflexivity|]. split; [intros x y z I; apply G6 in I; tauto|]. cbn [length] in G5. split; [|split; [intros _ x y z I; now apply G6 in I|lia]].
      intros x y z I. apply (G6 x y z). clear - I. induction ts as [|t ts IH]; [destruct I|]. cbn [removelast] in I. destruct ts as [|t' ts]; [destruct I|]. destruct I as [I|I]; [now left|right; now apply IH].
Qed.
Lemma ear4_loop (E : p2 -> pt) (c : p2 -> p2) a b d x fuel : OrientedCCW (c a) (c b) (c d) = true -> earLoop (Datatypes.S fuel) (map (fun q => (c q, E q)) [a; b; d; x]) 0 1 2 0 [] = (map (fun q => (c q, E q)) [a; d; x], [Tri (E a) (E b) (E d)]).
Proof. intros H. cbn [earLoop map length Nat.ltb Nat.leb andb nth_error fst snd]. rewrite H. unfold IsAnEar. cbn [nth_error firstn skipn chainHit negb andb Nat.add removeAt app length Nat.ltb Nat.leb map fst snd]. destruct fuel; reflexivity. Qed.
Lemma ear4 (E : p2 -> pt) (c : p2 -> p2) a b d x : Poly_To2D (map E [a; b; d; x]) = map c [a; b; d; x] -> OrientedCCW (c a) (c b) (c d) = true -> Poly_Triangulate (map E [a; b; d; x]) = map (tri_of E) [(a, b, d); (a, d, x)].
Proof.
  intros TO H. assert (F : Poly_Triangulate (map E [a; b; d; x]) = let '(vs, t) := earLoop 25 (combine (Poly_To2D (map E [a; b; d; x])) (map E [a; b; d; x])) 0 1 2 0 [] in match map snd vs with [a; b; c] => t ++ [Tri a b c] | _ => t end) by reflexivity.
  rewrite F. clear F. assert (CB : combine (Poly_To2D (map E [a; b; d; x])) (map E [a; b; d; x]) = map (fun q => (c q, E q)) [a; b; d; x]) by (rewrite TO; reflexivity). unfold p2 in *. rewrite CB. change 25%nat with (Datatypes.S 24). pose proof (ear4_loop E c a b d x 24 H) as G. unfold p2 in G. rewrite G. reflexivity.
Qed.
Lemma first_ccw s e : dt e e = 1 -> s = -1 -> forall a b d, turn a b d = -24 -> OrientedCCW (coords s e a a) (coords s e a b) (coords s e a d) = true.
Proof. intros UE -> a b d T. rewrite OrientedCCW_R, (coords_turn (-1) e a UE), T. apply Rleb_true. lra. Qed.
(** A counter-clockwise dart whose vertex list starts at the concave corner: its normal is turned the wrong way, the concave corner is clipped as if
    it were an ear, and the triangles cover 44 square units for a polygon of 20. *)
Theorem C94_concave_refuted : let qs := [V2 4 4; V2 0 1; V2 (-4) 4; V2 0 (-4)] : list p2 in let E := embed origin (V3 1 0 0) (V3 0 1 0) in
  signed_area qs = 20 /\ Poly_Triangulate (map E qs) = map (tri_of E) [(V2 4 4, V2 0 1, V2 (-4) 4); (V2 4 4, V2 (-4) 4, V2 0 (-4))] /\ turn (V2 4 4) (V2 0 1) (V2 (-4) 4) / 2 = -12 /\ turn (V2 4 4) (V2 (-4) 4) (V2 0 (-4)) / 2 = 32.
Proof.
  intros qs E. split; [unfold signed_area, qs, sum_edges, polygon_edges, path, area2; cbn; lra|]. split; [|split; unfold turn, area2, mi; cbn [x2 y2]; lra].
  assert (T : turn (V2 4 4) (V2 0 1) (V2 (-4) 4) = -24) by (unfold turn, area2, mi; cbn [x2 y2]; lra).
  assert (SP : spans qs) by (exists (V2 4 4), (V2 0 1), (V2 (-4) 4); split; [now exists [], [], [], [V2 0 (-4)]|rewrite T, Rabs_left; lra]).
  assert (D : dst (V2 4 4) (V2 0 1) = 5) by (unfold dst, Vec2Spec.nrm, dt, mi; cbn [x2 y2]; apply sqrt_lem_1; lra).
  destruct (setup origin (V3 1 0 0) (V3 0 1 0) (V2 4 4) (V2 0 1) [V2 (-4) 4; V2 0 (-4)] xy_frame SP) as (s & SS & S1 & UE & PL & BU & BV & _); [rewrite D; unfold eps6; lra|].
  assert (SM : s = -1).
  { pose proof (proj2 C90_concave_refuted) as NO. apply (eq_trans (eq_sym (f_equal (option_map (@pnormal R)) PL))) in NO. cbn [option_map] in NO. injection NO as N1 N2 N3. unfold facing, scale, cross in N3. cbn in N3. lra. }
  pose proof (to2D_R origin (V3 1 0 0) (V3 0 1 0) (V2 4 4) (V2 0 1) [V2 (-4) 4; V2 0 (-4)] s xy_frame BU BV) as TO. remember (sc (/ dst (V2 4 4) (V2 0 1)) (mi (V2 0 1) (V2 4 4))) as e eqn:Ee. clear Ee.
  exact (ear4 E (coords s e (V2 4 4)) (V2 4 4) (V2 0 1) (V2 (-4) 4) (V2 0 (-4)) TO (first_ccw s e UE SM _ _ _ T)).
Qed.
Example C94_witness : general_position [V2 0 0; V2 4 0; V2 1 1; V2 0 4] /\ spans [V2 0 0; V2 4 0; V2 1 1; V2 0 4] /\ eps6 < dst (V2 0 0) (V2 4 0).
Proof.
  assert (NE : forall a b : p2, x2 a <> x2 b \/ y2 a <> y2 b -> a <> b) by (intros a b [H|H] ->; now apply H). split; [split|split].
  - repeat constructor; cbn; intros K; repeat (destruct K as [K|K]; [revert K; apply NE; cbn; lra|]); exact K.
  - intros a b c A B C N1 N2 N3. cbn in A, B, C. repeat (destruct A as [A|A]; [subst a; repeat (destruct B as [B|B]; [subst b; try (now destruct N1); repeat (destruct C as [C|C]; [subst c; try (now destruct N2); try (now destruct N3); unfold turn, area2, mi; cbn [x2 y2]; unfold Rabs; destruct Rcase_abs; lra|]); destruct C|]); destruct B|]). destruct A.
  - exists (V2 0 0), (V2 4 0), (V2 1 1). split; [now exists [], [], [], [V2 0 4]|unfold turn, area2, mi; cbn; rewrite Rabs_pos_eq; lra].
  - unfold dst. replace (Vec2Spec.nrm _) with 4; [unfold eps6; lra|]. unfold Vec2Spec.nrm, dt, mi. cbn. symmetry. apply sqrt_lem_1; lra.
Qed.
Print Assumptions C94_triangles.
Print Assumptions C94_convex.
Print Assumptions C94_closest.
Print Assumptions C94_area.
Print Assumptions C94_concave_refuted.
