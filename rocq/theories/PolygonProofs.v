(** Ray crossings of plane polygons. *)
From Coq Require Import Reals List Bool Lra Lia Arith Classical.
From Verif Require Import Num NumR ScalarModel ScalarProofs Vec3Model Vec2Model Vec2Spec Vec2Props GeoTypes GeoSpec GeoLemmas HullSpec HullProofs HullProps2 PlaneTestProofs PolygonModel PolygonSpec.
Import ListNotations.
Open Scope R_scope.
Ltac Zify.zify_post_hook ::= idtac.

Lemma rayCrosses_R (a b : p2) : rayCrosses a b = true <-> y2 a * y2 b < 0 /\ 0 < area2 a b * (y2 b - y2 a).
Proof.
  unfold rayCrosses. rewrite Min_R, Max_R. rsimpl. destruct a as [xa ya], b as [xb yb]. unfold area2, sub2. cbn [x2 y2]. rsimpl.
  destruct (Rltb_spec (ya * yb) 0) as [H|H]; [|split; [discriminate|lra]].
  assert (D : yb - ya <> 0) by (intros Z; assert (yb = ya) by lra; subst; nra).
  assert (S : ya < 0 < yb \/ yb < 0 < ya) by (destruct (Rlt_or_le ya 0), (Rlt_or_le yb 0); nra).
  destruct (Rltb_spec 0 (Rmin xa xb)) as [M|M].
  { split; [intros _|reflexivity]. split; [exact H|]. assert (0 < xa) by (eapply Rlt_le_trans; [exact M|apply Rmin_l]). assert (0 < xb) by (eapply Rlt_le_trans; [exact M|apply Rmin_r]). destruct S as [S|S]; nra. }
  destruct (Rltb_spec 0 (Rmax xa xb)) as [N|N].
  2:{ split; [discriminate|]. intros (_ & K). assert (xa <= 0) by (eapply Rle_trans; [apply Rmax_l|exact N]). assert (xb <= 0) by (eapply Rle_trans; [apply Rmax_r|exact N]). exfalso. destruct S as [S|S]; nra. }
  destruct (Reqb_spec (yb - ya) 0) as [Z|_]; [contradiction|].
  replace (xa + - ya / (yb - ya) * (xb - xa)) with ((xa * yb - ya * xb) / (yb - ya)) by (field; exact D).
  assert (T0 : 0 <= - ya / (yb - ya) <= 1) by (destruct S as [S|S]; (split; [|]); [apply Rmult_le_pos; [lra|left; apply Rinv_0_lt_compat; lra]|apply (Rmult_le_reg_r (yb - ya)); [lra|]; unfold Rdiv; rewrite Rmult_assoc, Rinv_l by exact D; lra| |];
    replace (- ya / (yb - ya)) with (ya / (ya - yb)) by (field; lra); [apply Rmult_le_pos; [lra|left; apply Rinv_0_lt_compat; lra]|apply (Rmult_le_reg_r (ya - yb)); [lra|]; unfold Rdiv; rewrite Rmult_assoc, Rinv_l by lra; lra]).

  rewrite (proj2 (Rleb_true 0 _)), (proj2 (Rleb_true _ 1)) by apply T0. cbn [andb]. rewrite Rltb_true. 
  assert (P : 0 < (yb - ya) * (yb - ya)) by (destruct S; nra).
  replace ((xa * yb - ya * xb) * (yb - ya)) with ((xa * yb - ya * xb) / (yb - ya) * ((yb - ya) * (yb - ya))) by (field; exact D). set (k := (xa * yb - ya * xb) / (yb - ya)). split; [intros K; split; [exact H|now apply Rmult_lt_0_compat]|intros (_ & K); nra].
Qed.
Lemma rayCrosses_sym (a b : p2) : rayCrosses a b = rayCrosses b a.
Proof. apply eq_true_iff_eq. rewrite !rayCrosses_R. unfold area2. split; intros (A & B); split; lra. Qed.
Lemma rayCrosses_false (a b : p2) : rayCrosses a b = false <-> (y2 a * y2 b < 0 -> area2 a b * (y2 b - y2 a) <= 0).
Proof.
  split.
  - intros H K. apply Rnot_lt_le. intros L. assert (rayCrosses a b = true) by now apply rayCrosses_R. congruence.
  - intros H. destruct (rayCrosses a b) eqn:E; [|reflexivity]. apply rayCrosses_R in E as (A & B). specialize (H A). lra.
Qed.
(** Parity of the crossings as exclusive or. *)
Fixpoint parity (X : p2 -> p2 -> bool) (p : p2) (vs : list p2) : bool := match vs with [] => false | v :: r => xorb (X p v) (parity X v r) end.
Lemma crossings_parity (vs : list p2) : forall p, Nat.eqb (Nat.modulo (crossings p vs) 2) 1 = parity rayCrosses p vs.
Proof.
  assert (O : forall n, Nat.eqb (Nat.modulo n 2) 1 = Nat.odd n).
  { intros n. apply eq_true_iff_eq. rewrite Nat.eqb_eq, Nat.odd_spec. split.
    - intros H. exists (n / 2)%nat. pose proof (Nat.div_mod n 2 ltac:(discriminate)). lia.
    - intros (m & ->). rewrite Nat.add_comm, Nat.mul_comm, Nat.mod_add by discriminate. reflexivity. }
  induction vs as [|v vs IH]; intros p; [reflexivity|]. cbn [crossings parity]. rewrite O, Nat.odd_add, <- IH, O. now destruct (rayCrosses p v).
Qed.
Lemma parity_edge X p vs : parity X p vs = true -> exists a b, In (a, b) (path p vs) /\ X a b = true.
Proof.
  revert p. induction vs as [|v vs IH]; intros p; [discriminate|]. cbn [parity path]. destruct (X p v) eqn:E; [intros _; exists p, v; split; [now left|exact E]|].
  rewrite xorb_false_l. intros H. destruct (IH v H) as (a & b & I & J). exists a, b. split; [now right|exact J].
Qed.
Lemma parity_xor X Y p vs : xorb (parity X p vs) (parity Y p vs) = parity (fun a b => xorb (X a b) (Y a b)) p vs.
Proof. revert p. induction vs as [|v vs IH]; intros p; [reflexivity|]. cbn. rewrite <- IH. destruct (X p v), (Y p v), (parity X v vs), (parity Y v vs); reflexivity. Qed.
Lemma parity_ext X Y p vs : (forall a b, In (a, b) (path p vs) -> X a b = Y a b) -> parity X p vs = parity Y p vs.
Proof. revert p. induction vs as [|v vs IH]; intros p H; [reflexivity|]. cbn. rewrite (H p v), (IH v); [reflexivity| |now left]. intros a b I. apply H. now right. Qed.
(** Every closed walk changes sides an even number of times. *)
Lemma changes (f : p2 -> bool) p vs : parity (fun a b => xorb (f a) (f b)) p vs = xorb (f p) (f (last vs p)).
Proof.
  revert p. induction vs as [|v vs IH]; intros p; [cbn; now destruct (f p)|]. cbn [parity]. rewrite IH. replace (last (v :: vs) p) with (last vs v).
  - destruct (f p), (f v), (f (last vs v)); reflexivity.
  - destruct vs as [|w vs]; [reflexivity|]. change (last (w :: vs) v = last (w :: vs) p). now apply last_any.
Qed.
Lemma path_in p vs a b : In (a, b) (path p vs) -> (a = p \/ In a vs) /\ In b vs.
Proof. revert p. induction vs as [|v vs IH]; intros p; [intros []|]. intros [E|I]; [injection E as -> ->; split; [now left|now left]|]. destruct (IH v I) as ([ -> |A] & B); (split; [right|right; exact B]); [now left|now right]. Qed.
Lemma between_x (A : p2 -> Prop) a b : convex2 A -> A a -> A b -> y2 a * y2 b < 0 -> A (V2 (area2 a b / (y2 b - y2 a)) 0).
Proof.
  intros C HA HB H. assert (D : y2 b - y2 a <> 0) by (intros Z; assert (y2 b = y2 a) by lra; nra). assert (S : y2 a < 0 < y2 b \/ y2 b < 0 < y2 a) by (destruct (Rlt_or_le (y2 a) 0), (Rlt_or_le (y2 b) 0); nra).
  replace (V2 (area2 a b / (y2 b - y2 a)) 0) with (pl a (sc (- y2 a / (y2 b - y2 a)) (mi b a))) by (apply v2_ext; unfold pl, sc, mi, area2; cbn [x2 y2]; field; exact D).
  apply C; [|exact HA|exact HB]. destruct S as [S|S].
  - split; [apply Rmult_le_pos; [lra|left; apply Rinv_0_lt_compat; lra]|apply (Rmult_le_reg_r (y2 b - y2 a)); [lra|]; unfold Rdiv; rewrite Rmult_assoc, Rinv_l by exact D; lra].
  - replace (- y2 a / (y2 b - y2 a)) with (y2 a / (y2 a - y2 b)) by (field; lra). split; [apply Rmult_le_pos; [lra|left; apply Rinv_0_lt_compat; lra]|apply (Rmult_le_reg_r (y2 a - y2 b)); [lra|]; unfold Rdiv; rewrite Rmult_assoc, Rinv_l by lra; lra].
Qed.
(** An odd number of crossings of the right half axis puts the origin in the hull. *)
Lemma odd_in_hull (vs : list p2) d : (forall v, In v vs -> y2 v <> 0) -> vs <> [] -> parity rayCrosses (last vs d) vs = true -> in_hull2 vs o2.
Proof.
  intros NZ NE H. intros A CA AV.
  assert (LI : In (last vs d) vs) by (destruct (exists_last NE) as (l & x & ->); rewrite last_last; apply in_or_app; right; now left).
  assert (E : forall a b, In (a, b) (path (last vs d) vs) -> In a vs /\ In b vs) by (intros a b I; apply path_in in I as ([ -> |I1] & I2); auto).
  set (above := fun v : p2 => Rltb 0 (y2 v)).
  assert (CH : parity (fun a b => xorb (above a) (above b)) (last vs d) vs = false) by (rewrite changes; replace (last vs (last vs d)) with (last vs d) by (now apply last_any); apply xorb_nilpotent).
  assert (OT : parity (fun a b => xorb (rayCrosses a b) (xorb (above a) (above b))) (last vs d) vs = true) by (rewrite <- parity_xor, H, CH; reflexivity).
  apply parity_edge in H as (a & b & I1 & X1). apply parity_edge in OT as (c & e & I2 & X2). apply E in I1 as (Ia & Ib). apply E in I2 as (Ic & Ie).
  apply rayCrosses_R in X1 as (S1 & P1).
  assert (X3 : y2 c * y2 e < 0 /\ area2 c e * (y2 e - y2 c) <= 0).
  { pose proof (NZ c Ic). pose proof (NZ e Ie). unfold above in X2. destruct (rayCrosses c e) eqn:RC.
    - apply rayCrosses_R in RC as (RC & _). exfalso. destruct (Rltb_spec 0 (y2 c)), (Rltb_spec 0 (y2 e)); try discriminate; nra.
    - assert (SG : y2 c * y2 e < 0) by (destruct (Rltb_spec 0 (y2 c)), (Rltb_spec 0 (y2 e)); try discriminate; [assert (y2 e < 0) by lra|assert (y2 c < 0) by lra]; nra). split; [exact SG|]. now apply rayCrosses_false. }
  destruct X3 as (S2 & P2). pose proof (between_x A a b CA (AV a Ia) (AV b Ib) S1) as Q1. pose proof (between_x A c e CA (AV c Ic) (AV e Ie) S2) as Q2.
  assert (D1 : y2 b - y2 a <> 0) by (intros Z; assert (y2 b = y2 a) by lra; nra). assert (D2 : y2 e - y2 c <> 0) by (intros Z; assert (y2 e = y2 c) by lra; nra).
  assert (K1 : 0 < area2 a b / (y2 b - y2 a)) by (replace (area2 a b / (y2 b - y2 a)) with (area2 a b * (y2 b - y2 a) * (/ (y2 b - y2 a) * / (y2 b - y2 a))) by (field; exact D1); apply Rmult_lt_0_compat; [exact P1|]; pose proof (Rinv_neq_0_compat _ D1); nra).
  assert (K2 : area2 c e / (y2 e - y2 c) <= 0) by (replace (area2 c e / (y2 e - y2 c)) with (area2 c e * (y2 e - y2 c) * (/ (y2 e - y2 c) * / (y2 e - y2 c))) by (field; exact D2); assert (0 <= / (y2 e - y2 c) * / (y2 e - y2 c)) by nra; nra).
  revert Q1 Q2 K1 K2. generalize (area2 a b / (y2 b - y2 a)) (area2 c e / (y2 e - y2 c)). intros u v Q1 Q2 K1 K2.
  assert (Z : 0 < u - v) by lra. replace o2 with (pl (V2 v 0) (sc (- v / (u - v)) (mi (V2 u 0) (V2 v 0)))) by (apply v2_ext; unfold pl, sc, mi, o2; cbn [x2 y2]; field; lra).
  apply CA; [|exact Q2|exact Q1]. split; [apply Rmult_le_pos; [lra|left; now apply Rinv_0_lt_compat]|apply (Rmult_le_reg_r (u - v)); [exact Z|]; unfold Rdiv; rewrite Rmult_assoc, Rinv_l by lra; lra].
Qed.
(** A triangle. *)
Lemma tri_parity (a b c : p2) : y2 a <> 0 -> y2 b <> 0 -> y2 c <> 0 -> area2 a b <> 0 -> area2 b c <> 0 -> area2 c a <> 0 ->
  (parity rayCrosses a [b; c; a] = true <-> (0 < area2 a b /\ 0 < area2 b c /\ 0 < area2 c a) \/ (area2 a b < 0 /\ area2 b c < 0 /\ area2 c a < 0)).
Proof.
  intros Ya Yb Yc N1 N2 N3. cbn [parity]. assert (ID : area2 b c * y2 a + area2 c a * y2 b + area2 a b * y2 c = 0) by (unfold area2; ring).
  assert (X : forall u v : p2, y2 u <> 0 -> y2 v <> 0 -> area2 u v <> 0 -> rayCrosses u v = if Rltb 0 (y2 u) then (if Rltb 0 (y2 v) then false else Rltb (area2 u v) 0) else if Rltb 0 (y2 v) then Rltb 0 (area2 u v) else false).
  { intros u v Hu Hv _. apply eq_true_iff_eq. rewrite rayCrosses_R. destruct (Rltb_spec 0 (y2 u)), (Rltb_spec 0 (y2 v)); try (rewrite Rltb_true); split; try discriminate; try (intros (? & ?)); try (intros ?); try split; try nra.
  }
  rewrite !X by assumption. clear X. revert ID. generalize dependent (area2 a b). generalize dependent (area2 b c). generalize dependent (area2 c a). generalize dependent (y2 a). generalize dependent (y2 b). generalize dependent (y2 c).
  intros z Z y Y x X t3 N3 t2 N2 t1 N1 ID.
  destruct (Rltb_spec 0 x), (Rltb_spec 0 y), (Rltb_spec 0 z), (Rltb_spec t1 0), (Rltb_spec 0 t1), (Rltb_spec t2 0), (Rltb_spec 0 t2), (Rltb_spec t3 0), (Rltb_spec 0 t3); try lra; cbn; (split; [try discriminate; intros _|intros K; try reflexivity; exfalso]); try lra; try (exfalso; nra); nra.
Qed.
(** A closed walk and its fan of triangles. *)
Lemma parity_app X p vs w : parity X p (vs ++ [w]) = xorb (parity X p vs) (X (last vs p) w).
Proof.
  revert p. induction vs as [|v vs IH]; intros p; [cbn; now destruct (X p w)|]. cbn [parity app]. rewrite IH, <- xorb_assoc. f_equal. f_equal.
  destruct vs as [|u vs]; [reflexivity|]. change (last (u :: vs) v = last (u :: vs) p). now apply last_any.
Qed.
Fixpoint fanpar (X : p2 -> p2 -> bool) (v0 v : p2) (rest : list p2) : bool := match rest with [] => false | w :: r => xorb (parity X v0 [v; w; v0]) (fanpar X v0 w r) end.
Lemma fan_parity X v0 : (forall a b, X a b = X b a) -> forall rest v, parity X v0 (v :: rest ++ [v0]) = fanpar X v0 v rest.
Proof.
  intros S. induction rest as [|w r IH]; intros v; [cbn; rewrite (S v v0); now destruct (X v0 v)|]. cbn [fanpar]. rewrite <- IH. cbn [parity app]. rewrite (S w v0). destruct (X v0 v), (X v w), (X v0 w), (parity X w (r ++ [v0])); reflexivity.
Qed.
Lemma closed_parity X v0 rest d : (forall a b, X a b = X b a) -> parity X (last (v0 :: rest) d) (v0 :: rest) = match rest with [] => X v0 v0 | v :: r => fanpar X v0 v r end.
Proof.
  intros S. destruct rest as [|v r]; [cbn; now destruct (X v0 v0)|]. rewrite <- (fan_parity X v0 S r v). change (v :: r ++ [v0]) with ((v :: r) ++ [v0]). rewrite parity_app. cbn [parity].
  replace (last (v0 :: v :: r) d) with (last (v :: r) v0); [apply xorb_comm|]. change (last (v :: r) v0 = last (v :: r) d). now apply last_any.
Qed.
Lemma parity_map X g p vs : parity X (g p) (map g vs) = parity (fun a b => X (g a) (g b)) p vs.
Proof. revert p. induction vs as [|v vs IH]; intros p; [reflexivity|]. cbn. now rewrite IH. Qed.
Lemma last_map (g : p2 -> p2) vs d : last (map g vs) (g d) = g (last vs d).
Proof. induction vs as [|v vs IH]; [reflexivity|]. destruct vs; [reflexivity|]. exact IH. Qed.
(** One rising edge. *)
Lemma nrm_x w : Rabs (x2 w) <= nrm w.
Proof. apply Rsqr_incr_0_var; [|apply nrm_pos]. rewrite <- Rsqr_abs. unfold Rsqr. rewrite nrm_sq. unfold dt. nra. Qed.
Lemma path_snd vs : forall p, map snd (path p vs) = vs.
Proof. induction vs as [|v vs IH]; intros p; [reflexivity|]. cbn. now rewrite IH. Qed.
Lemma path_same_end vs p a b c : NoDup vs -> In (a, b) (path p vs) -> In (c, b) (path p vs) -> a = c.
Proof.
  revert p. induction vs as [|v vs IH]; intros p ND; [intros []|]. inversion ND as [|? ? NI ND']; subst. intros [E|I] [F|J].
  - congruence. - injection E as -> ->. apply path_in in J as (_ & J). contradiction. - injection F as -> ->. apply path_in in I as (_ & I). contradiction. - now apply (IH v).
Qed.
Lemma parity_none X vs : forall p, (forall a b, In (a, b) (path p vs) -> X a b = false) -> parity X p vs = false.
Proof. induction vs as [|v vs IH]; intros p H; [reflexivity|]. cbn. rewrite (H p v) by now left. rewrite (IH v); [reflexivity|]. intros a b I. apply H. now right. Qed.
Lemma parity_unique X vs : NoDup vs -> forall p, (exists a b, In (a, b) (path p vs) /\ X a b = true) -> (forall a b c e, In (a, b) (path p vs) -> In (c, e) (path p vs) -> X a b = true -> X c e = true -> b = e) -> parity X p vs = true.
Proof.
  induction vs as [|v vs IH]; intros ND p (a & b & I & E) U; [destruct I|]. inversion ND as [|? ? NI ND']; subst. cbn. destruct (X p v) eqn:PV.
  - rewrite parity_none; [reflexivity|]. intros c e J. destruct (X c e) eqn:CE; [|reflexivity]. exfalso. assert (v = e) by (apply (U p v c e); [now left|now right|exact PV|exact CE]). subst e. apply path_in in J as (_ & J). contradiction.
  - rewrite xorb_false_l. destruct I as [EE|I]; [injection EE as <- <-; congruence|]. apply IH; [exact ND'|exists a, b; now split|]. intros c e f g J K. apply U; now right.
Qed.
Lemma rising (f : p2 -> bool) vs : forall p, (forall a b, In (a, b) (path p vs) -> f a = false -> f b = false) -> f p = false -> forall v, In v vs -> f v = false.
Proof. induction vs as [|u vs IH]; intros p H P v; [intros []|]. assert (U : f u = false) by (apply (H p u); [now left|exact P]). intros [ <- |I]; [exact U|]. apply (IH u); [|exact U|exact I]. intros a b J. apply H. now right. Qed.
Lemma path_tail l1 w l2 : forall p a b, In (a, b) (path w l2) -> In (a, b) (path p (l1 ++ w :: l2)).
Proof. induction l1 as [|v l1 IH]; intros p a b I; [now right|]. right. now apply IH. Qed.
Lemma rise_exists (f : p2 -> bool) vs d v w : In v vs -> f v = true -> In w vs -> f w = false -> exists a b, In (a, b) (path (last vs d) vs) /\ f a = false /\ f b = true.
Proof.
  intros Iv V Iw W. destruct (classic (exists a b, In (a, b) (path (last vs d) vs) /\ f a = false /\ f b = true)) as [K|K]; [exact K|exfalso].
  assert (H : forall a b, In (a, b) (path (last vs d) vs) -> f a = false -> f b = false) by (intros a b I J; destruct (f b) eqn:B; [exfalso; apply K; exists a, b; auto|reflexivity]).
  destruct (f (last vs d)) eqn:L.
  - apply in_split in Iw as (l1 & l2 & ->). assert (T : forall u, In u l2 -> f u = false) by (apply (rising f l2 w); [intros a b I; apply H; now apply path_tail|exact W]).
    destruct (exists_last (l := w :: l2)) as (l & x & E); [discriminate|]. rewrite E, app_assoc, last_last in L. assert (X : In x (w :: l2)) by (rewrite E; apply in_or_app; right; now left). destruct X as [ <- |X]; [congruence|]. rewrite (T x X) in L. discriminate.
  - rewrite (rising f vs _ H L v Iv) in V. discriminate.
Qed.
Lemma up_unique (vs : list p2) h a b c d : ccw_polygon vs -> In (a, b) (polygon_edges vs) -> In (c, d) (polygon_edges vs) -> y2 a < h <= y2 b -> y2 c < h <= y2 d -> b = d.
Proof.
  intros CCW E1 E2 H1 H2. pose proof CCW as (ND & _ & LEFT). destruct (edge_in _ _ _ E1) as (Ia & Ib). destruct (edge_in _ _ _ E2) as (Ic & Id).
  pose proof (LEFT a b c E1 Ic) as A1. pose proof (LEFT a b d E1 Id) as A2. pose proof (LEFT c d a E2 Ia) as B1. pose proof (LEFT c d b E2 Ib) as B2.
  assert (Z : turn a b d = 0).
  { clear - H1 H2 A1 A2 B1 B2. unfold turn, area2, mi in *. cbn [x2 y2] in *. destruct a as [xa ya], b as [xb yb], c as [xc yc], d as [xd yd]. cbn [x2 y2] in *.
    set (u := yb - ya) in *. set (v := yd - yc) in *. assert (U : 0 < u) by (unfold u; lra). assert (V : 0 < v) by (unfold v; lra).
    (* the sums of the four heights over the other edge, weighted to the level h, cancel *)
    assert (S : ((yd - h) * ((xb - xa) * (yc - ya) - u * (xc - xa)) + (h - yc) * ((xb - xa) * (yd - ya) - u * (xd - xa))) + ((yb - h) * ((xd - xc) * (ya - yc) - v * (xa - xc)) + (h - ya) * ((xd - xc) * (yb - yc) - v * (xb - xc))) = 0) by (unfold u, v; ring). 
    assert (P1 : 0 <= (yd - h) * ((xb - xa) * (yc - ya) - u * (xc - xa))) by (apply Rmult_le_pos; [lra|exact A1]). assert (P2 : 0 <= (h - yc) * ((xb - xa) * (yd - ya) - u * (xd - xa))) by (apply Rmult_le_pos; [lra|exact A2]).
    assert (P3 : 0 <= (yb - h) * ((xd - xc) * (ya - yc) - v * (xa - xc))) by (apply Rmult_le_pos; [lra|exact B1]). assert (P4 : 0 <= (h - ya) * ((xd - xc) * (yb - yc) - v * (xb - xc))) by (apply Rmult_le_pos; [lra|exact B2]).
    assert (Q : (h - yc) * ((xb - xa) * (yd - ya) - u * (xd - xa)) = 0) by nra. apply Rmult_integral in Q as [Q|Q]; [lra|exact Q]. }
  destruct (classic (d = b)) as [ -> |N]; [reflexivity|]. destruct (classic (d = a)) as [ -> |N2]; [lra|]. pose proof (strict_edge vs a b d CCW E1 Id N2 N). lra.
Qed.
(** Vertices close to the ray are moved below it. *)
Definition lev : R := 1 / 10000.
Definition nudged (v : p2) : p2 := if Rltb (Rabs (y2 v)) lev then V2 (x2 v) (- lev) else v.
Lemma nudge_R v : nudge v = nudged v.
Proof. unfold nudge, nudged. rewrite Abs_R, !nlit_R. reflexivity. Qed.
Lemma nudged_x v : x2 (nudged v) = x2 v. Proof. unfold nudged. now destruct (Rltb _ _). Qed.
Lemma nudged_above v : lev <= y2 v -> nudged v = v.
Proof. unfold nudged. destruct (Rltb_spec (Rabs (y2 v)) lev) as [H|H]; [|reflexivity]. intros K. pose proof (Rle_abs (y2 v)). lra. Qed.
Lemma nudged_below v : y2 v < lev -> y2 (nudged v) <= - lev /\ 0 <= y2 v - y2 (nudged v) <= 2 * lev.
Proof.
  intros K. unfold nudged. destruct (Rltb_spec (Rabs (y2 v)) lev) as [H|H]; cbn [y2].
  - apply Rabs_def2 in H. lra. - assert (L : 0 < lev) by (unfold lev; lra). unfold Rabs in H. destruct (Rcase_abs (y2 v)); lra.
Qed.
Lemma nudged_near v : dst v (nudged v) <= 2 * lev.
Proof.
  assert (L : 0 < lev) by (unfold lev; lra). destruct (Rlt_or_le (y2 v) lev) as [H|H].
  - destruct (nudged_below v H) as (_ & K). unfold dst, nrm, dt, mi. cbn [x2 y2]. rewrite nudged_x. replace ((x2 v - x2 v) * (x2 v - x2 v) + _) with (Rsqr (y2 v - y2 (nudged v))) by (unfold Rsqr; ring). rewrite sqrt_Rsqr by apply K. apply K.
  - rewrite (nudged_above v H). replace (dst v v) with 0 by (symmetry; now apply dst_zero). lra.
Qed.
Lemma nudged_y v : y2 (nudged v) <> 0.
Proof. assert (L : 0 < lev) by (unfold lev; lra). destruct (Rlt_or_le (y2 v) lev) as [H|H]; [destruct (nudged_below v H); lra|rewrite (nudged_above v H); lra]. Qed.
Lemma rise_positive xa ya xb yb k L T : 0 < yb -> ya < yb -> 0 < yb - ya + k -> ya - k < 0 -> 0 <= k -> T = xa * yb - ya * xb -> Rabs (xb - xa) <= L -> k * L < T -> 0 < xa * yb - (ya - k) * xb.
Proof.
  intros B AB D A K ET X H. assert (ID : (xa * yb - (ya - k) * xb) * (yb - ya) = (yb - ya + k) * T + yb * (k * (xb - xa))) by (rewrite ET; ring).
  assert (X2 : - L <= xb - xa) by (pose proof (Rle_abs (- (xb - xa))) as Q; rewrite Rabs_Ropp in Q; lra). assert (L0 : 0 <= L) by (pose proof (Rabs_pos (xb - xa)); lra).
  assert (Y : - (k * L) <= k * (xb - xa)) by nra. assert (TP : 0 < T) by nra. assert (P : 0 < (yb - ya + k) * T + yb * (k * (xb - xa))) by (assert (yb * T <= (yb - ya + k) * T) by nra; assert (yb * (- (k * L)) <= yb * (k * (xb - xa))) by nra; nra).
  rewrite <- ID in P. clear - P AB. nra.
Qed.
Lemma inside_parity (vs : list p2) d : ccw_polygon vs -> (3 <= length vs)%nat ->
  (strictly_inside vs o2 /\ forall v, In v vs -> lev <= Rabs (y2 v)) \/ deep_inside vs o2 (2 * lev) -> parity rayCrosses (last (map nudged vs) d) (map nudged vs) = true.
Proof.
  intros CCW LEN H. assert (LV : 0 < lev) by (unfold lev; lra). assert (NE : vs <> []) by (intros ->; cbn in LEN; lia).
  assert (NEM : map nudged vs <> []) by (intros E; apply NE; now destruct vs). rewrite (last_any (map nudged vs) d (nudged o2) NEM), last_map, parity_map.
  assert (EDG : forall e, In e (path (last vs o2) vs) -> In e (polygon_edges vs)) by (intros e I; destruct vs as [|v r]; [contradiction|]; cbn [polygon_edges]; rewrite (last_any (v :: r) v o2 NE); exact I).
  assert (SI : forall a b, In (a, b) (polygon_edges vs) -> 0 < turn a b o2) by (intros a b I; destruct H as [(H & _)|H]; [now apply H|]; pose proof (H a b I); pose proof (dst_pos a b); nra).
  set (f := fun v : p2 => Rleb lev (y2 v)).
  assert (TE : forall a b, turn a b o2 = x2 a * y2 b - y2 a * x2 b) by (intros a b; unfold turn, area2, mi, o2; cbn [x2 y2]; ring).
  (* the displacement is harmless on every edge *)
  assert (OK : forall a b v, In (a, b) (polygon_edges vs) -> v = a \/ v = b -> y2 v < lev -> 0 <= y2 v - y2 (nudged v) /\ (y2 v - y2 (nudged v)) * dst a b < turn a b o2).
  { intros a b v I V B. destruct (nudged_below v B) as (_ & K). split; [apply K|]. destruct H as [(_ & H)|H].
    - assert (Iv : In v vs) by (destruct (edge_in _ _ _ I) as (Ia & Ib); destruct V as [ -> | -> ]; assumption). pose proof (H v Iv) as Hv. assert (E : nudged v = v) by (unfold nudged; destruct (Rltb_spec (Rabs (y2 v)) lev); [lra|reflexivity]). rewrite E. pose proof (SI a b I). lra.
    - pose proof (H a b I) as J. pose proof (dst_pos a b). nra. }
  assert (WX : forall a b, Rabs (x2 b - x2 a) <= dst a b) by (intros a b; rewrite dst_sym; apply (nrm_x (mi b a))).
  rewrite (parity_ext _ (fun a b => negb (f a) && f b)).
  2:{ intros a b I. apply EDG in I. unfold f. destruct (Rleb_spec lev (y2 a)) as [A|A], (Rleb_spec lev (y2 b)) as [B|B]; cbn [negb andb].
    - apply rayCrosses_false. rewrite !nudged_above by assumption. intros K. exfalso. nra.
    - apply rayCrosses_false. intros _. rewrite (nudged_above a A). destruct (nudged_below b B) as (B1 & B2). destruct (OK a b b I (or_intror eq_refl) B) as (K0 & K1). set (k := y2 b - y2 (nudged b)) in *.
      assert (ID : (x2 a * y2 (nudged b) - y2 a * x2 b) * (y2 a - y2 b) = - ((y2 a - y2 b + k) * (x2 b * y2 a - y2 b * x2 a) + y2 a * (k * (x2 a - x2 b)))) by (unfold k; ring).
      rewrite TE in K1. pose proof (WX b a) as X. rewrite (dst_sym b a) in X. assert (L0 : 0 <= dst a b) by apply dst_pos. pose proof (Rle_abs (x2 a - x2 b)) as X1.
      assert (P : 0 < (x2 a * y2 (nudged b) - y2 a * x2 b)).
      { set (T := x2 a * y2 b - y2 a * x2 b) in *. replace (x2 b * y2 a - y2 b * x2 a) with (- T) in ID by (unfold T; ring). assert (TP : 0 < T) by nra.
        assert (Y : k * (x2 a - x2 b) <= k * dst a b) by (apply Rmult_le_compat_l; lra). assert (W : y2 a * (k * (x2 a - x2 b)) <= y2 a * (k * dst a b)) by (apply Rmult_le_compat_l; lra).
        assert (Z : y2 a * (k * dst a b) < y2 a * T) by (apply Rmult_lt_compat_l; lra). assert (Z2 : y2 a * T <= (y2 a - y2 b + k) * T) by (apply Rmult_le_compat_r; unfold k in *; lra).
        assert (F : 0 < (x2 a * y2 (nudged b) - y2 a * x2 b) * (y2 a - y2 b)) by lra. clear - F A B. nra. }
      unfold area2. rewrite nudged_x. clear - P A B1 LV. nra.
    - apply rayCrosses_R. rewrite (nudged_above b B). destruct (nudged_below a A) as (B1 & B2). destruct (OK a b a I (or_introl eq_refl) A) as (K0 & K1). set (k := y2 a - y2 (nudged a)) in *. rewrite TE in K1.
      pose proof (rise_positive (x2 a) (y2 a) (x2 b) (y2 b) k (dst a b) _ ltac:(lra) ltac:(lra) ltac:(lra) ltac:(unfold k; lra) K0 eq_refl (WX a b) K1) as Q. replace (y2 a - k) with (y2 (nudged a)) in Q by (unfold k; ring).
      unfold area2. rewrite nudged_x. split; [nra|]. apply Rmult_lt_0_compat; [exact Q|lra].
    - apply rayCrosses_false. intros K. destruct (nudged_below a A), (nudged_below b B). exfalso. nra. }
  assert (HULL : forall s, (s = 0 \/ (deep_inside vs o2 (2 * lev) /\ Rabs s = 2 * lev)) -> in_hull2 vs (V2 0 s)).
  { intros s S. apply C83_halfplanes; [exact CCW|exact LEN|]. intros a b I. pose proof (SI a b I) as P. replace (turn a b (V2 0 s)) with (turn a b o2 + (x2 b - x2 a) * s) by (unfold turn, area2, mi, o2; cbn [x2 y2]; ring).
    destruct S as [ -> |(D & S)]; [lra|]. pose proof (D a b I) as Q. pose proof (WX a b) as X. assert (Rabs ((x2 b - x2 a) * s) <= dst a b * (2 * lev)) by (rewrite Rabs_mult, S; apply Rmult_le_compat_r; lra). pose proof (Rle_abs (- ((x2 b - x2 a) * s))) as Z. rewrite Rabs_Ropp in Z. lra. }
  assert (HIGH : exists v, In v vs /\ f v = true).
  { apply NNPP. intros N. assert (B : forall v, In v vs -> y2 v < lev) by (intros v I; apply Rnot_le_lt; intros K; apply N; exists v; split; [exact I|now apply Rleb_true]). destruct H as [(H & G)|H].
    - assert (K : y2 (V2 0 0 : p2) < 0); [|cbn in K; lra]. apply (HULL 0 (or_introl eq_refl) (fun v => y2 v < 0)); [intros u w t T U W; unfold pl, sc, mi; cbn [y2]; destruct (Rle_or_lt t (1 / 2)); nra|]. intros v I. pose proof (B v I). pose proof (G v I) as J. unfold Rabs in J. destruct (Rcase_abs (y2 v)); lra.
    - assert (K : y2 (V2 0 (2 * lev) : p2) <= lev); [|cbn in K; lra]. apply (HULL (2 * lev)); [right; split; [exact H|apply Rabs_pos_eq; lra]|intros u w t T U W; unfold pl, sc, mi; cbn [y2]; nra|]. intros v I. left. now apply B. }
  assert (LOW : exists v, In v vs /\ f v = false).
  { apply NNPP. intros N. assert (B : forall v, In v vs -> lev <= y2 v) by (intros v I; apply Rnot_lt_le; intros K; apply N; exists v; split; [exact I|now apply Rleb_false]). 
    assert (K : lev <= y2 (V2 0 0 : p2)); [|cbn in K; lra]. apply (HULL 0 (or_introl eq_refl)); [intros u w t T U W; unfold pl, sc, mi; cbn [y2]; nra|exact B]. }
  destruct HIGH as (v & Iv & V). destruct LOW as (w & Iw & W). apply parity_unique; [apply CCW| |].
  - destruct (rise_exists f vs o2 v w Iv V Iw W) as (a & b & I & A & B). exists a, b. split; [exact I|now rewrite A, B].
  - intros a b c e I J X Y. apply EDG in I. apply EDG in J. apply andb_prop in X as (X1 & X2). apply andb_prop in Y as (Y1 & Y2). apply negb_true_iff, Rleb_false in X1. apply Rleb_true in X2. apply negb_true_iff, Rleb_false in Y1. apply Rleb_true in Y2.
    apply (up_unique vs lev a b c e CCW I J); lra.
Qed.
