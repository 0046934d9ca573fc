(** C52: intersection of oriented boxes. *)
From Coq Require Import Reals Psatz List Bool.
From Verif Require Import Num NumR ScalarModel ScalarProofs Vec3Model GeoTypes GeoSpec GeoLemmas Vec3Props AabbModel AabbSpec AabbProofs AabbProps AabbProps2 MatModel MatSpec MatProofs MatProofs2 LineModel LineSpec LineProofs LineProofs2 LineProps
  PlaneModel PlaneSpec PlaneProps TriangleModel TriangleSpec TriangleProps SatModel SatTheory SatProps CircleProps ObbModel ObbProps.
Import ListNotations.
Open Scope R_scope.
Ltac Zify.zify_post_hook ::= idtac.

Section Frames.
  Context (a b c : pt) (U0 : unitv a) (U1 : unitv b) (U2 : unitv c) (O1 : orth a b) (O2 : orth a c) (O3 : orth b c).
  Lemma vol_one : dot c (cross a b) * dot c (cross a b) = 1.
  Proof.
    pose proof (parseval a b c (cross a b) (cross a b) U0 U1 U2 O1 O2 O3) as P. rewrite (dot_comm a (cross a b)), (dot_comm b (cross a b)), dcl, dcr in P.
    assert (Q : dot (cross a b) (cross a b) = dot a a * dot b b - dot a b * dot a b) by (unfold cross; gunf; ring). unfold unitv, orth in *. rewrite U0, U1, O1 in Q. lra.
  Qed.
  Lemma frame_cross (t v : pt) : Rabs (dot t (cross a v)) = Rabs (dot t c * dot b v - dot t b * dot c v).
  Proof.
    assert (E : dot t (cross a v) = (dot t c * dot b v - dot t b * dot c v) * dot c (cross a b)).
    { assert (G : forall x y z p q r, dot (plus (scale x a) (plus (scale y b) (scale z c))) (cross a (plus (scale p a) (plus (scale q b) (scale r c)))) = (z * q - y * r) * dot c (cross a b)) by (intros; unfold cross; gunf; ring).
      rewrite (dot_comm b v), (dot_comm c v), <- (G (dot t a) _ _ (dot v a)). f_equal; [now apply expand|f_equal; now apply expand]. }
    rewrite E, Rabs_mult. pose proof vol_one as V. assert (Rabs (dot c (cross a b)) = 1) as ->; [|ring]. rewrite <- (Rabs_R1). apply Rsqr_eq_abs_0. unfold Rsqr. lra.
  Qed.
End Frames.
Lemma frame_of o : framed o -> unitv (oaxis0 o) /\ unitv (oaxis1 o) /\ unitv (oaxis2 o) /\ orth (oaxis0 o) (oaxis1 o) /\ orth (oaxis1 o) (oaxis0 o) /\ orth (oaxis0 o) (oaxis2 o) /\ orth (oaxis2 o) (oaxis0 o) /\ orth (oaxis1 o) (oaxis2 o) /\ orth (oaxis2 o) (oaxis1 o).
Proof. intros (A & B & C & D & E & G). unfold orth in *. rewrite (dot_comm (oaxis1 o) (oaxis0 o)), (dot_comm (oaxis2 o) (oaxis0 o)), (dot_comm (oaxis2 o) (oaxis1 o)). tauto. Qed.
(** Projections on a direction. *)
Lemma reach_axis o : framed o -> reach o (oaxis0 o) = vx (orad o) /\ reach o (oaxis1 o) = vy (orad o) /\ reach o (oaxis2 o) = vz (orad o).
Proof.
  intros F. destruct (frame_of o F) as (U0 & U1 & U2 & A & B & C & D & E & G). unfold unitv, orth, reach in *. rewrite U0, U1, U2, A, B, C, D, E, G, Rabs_R0, Rabs_R1. lra.
Qed.
Lemma reach_cross o v : framed o ->
  reach o (cross (oaxis0 o) v) = Rabs (dot (oaxis2 o) v) * vy (orad o) + Rabs (dot (oaxis1 o) v) * vz (orad o) /\
  reach o (cross (oaxis1 o) v) = Rabs (dot (oaxis2 o) v) * vx (orad o) + Rabs (dot (oaxis0 o) v) * vz (orad o) /\
  reach o (cross (oaxis2 o) v) = Rabs (dot (oaxis1 o) v) * vx (orad o) + Rabs (dot (oaxis0 o) v) * vy (orad o).
Proof.
  intros F. destruct (frame_of o F) as (U0 & U1 & U2 & A & B & C & D & E & G). unfold reach. rewrite !(dot_comm (cross _ _)).
  rewrite !(frame_cross (oaxis0 o) (oaxis1 o) (oaxis2 o)), !(frame_cross (oaxis1 o) (oaxis2 o) (oaxis0 o)), !(frame_cross (oaxis2 o) (oaxis0 o) (oaxis1 o)) by assumption.
  unfold unitv, orth in *. rewrite U0, U1, U2, A, B, C, D, E, G. rewrite !Rmult_0_l, !Rmult_1_l, !Rminus_0_l, !Rminus_0_r, !Rabs_Ropp, !Rabs_R0. split; [|split]; ring.
Qed.
Lemma cross_flip a b : cross a b = scale (-1) (cross b a).
Proof. unfold cross. gunf. apply vec_ext; cbn [vx vy vz]; ring. Qed.
Lemma reach_cross' o v : framed o ->
  reach o (cross v (oaxis0 o)) = Rabs (dot (oaxis2 o) v) * vy (orad o) + Rabs (dot (oaxis1 o) v) * vz (orad o) /\
  reach o (cross v (oaxis1 o)) = Rabs (dot (oaxis2 o) v) * vx (orad o) + Rabs (dot (oaxis0 o) v) * vz (orad o) /\
  reach o (cross v (oaxis2 o)) = Rabs (dot (oaxis1 o) v) * vx (orad o) + Rabs (dot (oaxis0 o) v) * vy (orad o).
Proof. intros F. rewrite !(cross_flip v), !reach_opp. now apply reach_cross. Qed.
(** The test on one axis. *)
Definition gap_on (o b : obb R) (L : pt) : Prop := reach o L + reach b L < Rabs (dot (minus (opos b) (opos o)) L).
Lemma sat_apart_R (o b : obb R) L : obb_ok o -> obb_ok b -> (SAT_apart (OBB_shape o) (OBB_shape b) L = true <-> gap_on o b L).
Proof.
  intros K B. unfold SAT_apart. cbn [OBB_shape sh_project]. rewrite !project_R by assumption. rsimpl. rewrite orb_true_iff, !Rltb_true. unfold gap_on. rewrite (dot_comm _ L), dot_minus_r. unfold Rabs. destruct Rcase_abs; split; lra.
Qed.
Lemma gap_disjoint o b L p : obb_ok o -> obb_ok b -> gap_on o b L -> in_obb o p -> in_obb b p -> False.
Proof.
  intros K B H P Q. pose proof (reach_bound o L p K P) as H1. pose proof (reach_bound b L p B Q) as H2. unfold gap_on in H. rewrite (dot_comm _ L), dot_minus_r in H.
  replace (dot L (opos b) - dot L (opos o)) with ((dot L p - dot L (opos o)) + - (dot L p - dot L (opos b))) in H by ring. pose proof (Rabs_triang (dot L p - dot L (opos o)) (- (dot L p - dot L (opos b)))) as T. rewrite Rabs_Ropp in T. lra.
Qed.
(** The fifteen axes, each with the factor by which the tolerance widens the test. *)
Definition axes15 (o b : obb R) : list (pt * R) :=
  let x := vx (orad o) in let y := vy (orad o) in let z := vz (orad o) in let bx := vx (orad b) in let by_ := vy (orad b) in let bz := vz (orad b) in
  [(oaxis0 o, bx + by_ + bz); (oaxis1 o, bx + by_ + bz); (oaxis2 o, bx + by_ + bz); (oaxis0 b, x + y + z); (oaxis1 b, x + y + z); (oaxis2 b, x + y + z);
   (cross (oaxis0 o) (oaxis0 b), y + z + by_ + bz); (cross (oaxis0 o) (oaxis1 b), y + z + bx + bz); (cross (oaxis0 o) (oaxis2 b), y + z + bx + by_);
   (cross (oaxis1 o) (oaxis0 b), x + z + by_ + bz); (cross (oaxis1 o) (oaxis1 b), x + z + bx + bz); (cross (oaxis1 o) (oaxis2 b), x + z + bx + by_);
   (cross (oaxis2 o) (oaxis0 b), x + y + by_ + bz); (cross (oaxis2 o) (oaxis1 b), x + y + bx + bz); (cross (oaxis2 o) (oaxis2 b), x + y + bx + by_)].
Definition wide_gap (o b : obb R) (eps : R) (a : pt * R) : Prop := reach o (fst a) + reach b (fst a) + eps * snd a < Rabs (dot (minus (opos b) (opos o)) (fst a)).
Lemma if_chain (x : bool) (y : bool) : (if x then false else y) = negb x && y. Proof. now destruct x. Qed.
Lemma apart_R (d s : R) : negb (Rltb s (Rabs d)) = true <-> ~ (s < Rabs d).
Proof. rewrite negb_true_iff, Rltb_false. lra. Qed.
Lemma not_iff (s d s' d' : R) : s = s' -> d = d' -> (~ (s < d) <-> ~ (s' < d')). Proof. intros -> ->. reflexivity. Qed.
Lemma and_iff (A B C D : Prop) : (A <-> C) -> (B <-> D) -> (A /\ B <-> C /\ D). Proof. tauto. Qed.
Lemma forall_cons (P : pt * R -> Prop) a l : (forall x, In x (a :: l) -> P x) <-> P a /\ forall x, In x l -> P x.
Proof. split; [intros H; split; [apply H; now left|intros x X; apply H; now right]|intros [H G] x [<-|X]; auto]. Qed.
Lemma forall_none (P : pt * R -> Prop) (A : Prop) : A /\ (forall x, In x [] -> P x) <-> A.
Proof. split; [tauto|]. intros H. split; [exact H|]. intros x []. Qed.
Lemma test_R (o b : obb R) eps : framed o -> framed b -> (OBB_IntersectsOBB_eps o b eps = true <-> forall a, In a (axes15 o b) -> ~ wide_gap o b eps a).
Proof.
  intros F B. unfold OBB_IntersectsOBB_eps. cbv zeta. rewrite !if_chain, !andb_true_iff, !Abs_R. change (@Dot R Num_R) with dot. change (@vsub R Num_R) with minus. rsimpl. rewrite !apart_R.
  unfold axes15. cbv zeta. rewrite !forall_cons, forall_none. set (t := minus (opos b) (opos o)). unfold wide_gap. fold t. cbn [fst snd].
  pose proof F as (U0 & U1 & U2 & O1 & O2 & O3). pose proof (frame_of o F) as (_ & _ & _ & _ & Q1 & _ & Q2 & _ & Q3).
  destruct (reach_axis o F) as (R0 & R1 & R2). destruct (reach_axis b B) as (S0 & S1 & S2). rewrite R0, R1, R2, S0, S1, S2.
  assert (Ro : forall v, reach o v = Rabs (dot (oaxis0 o) v) * vx (orad o) + Rabs (dot (oaxis1 o) v) * vy (orad o) + Rabs (dot (oaxis2 o) v) * vz (orad o)) by (intros v; unfold reach; now rewrite !(dot_comm v)).
  pose proof (fun v => parseval _ _ _ t v U0 U1 U2 O1 O2 O3) as P.
  destruct (reach_cross o (oaxis0 b) F) as (X00 & X10 & X20), (reach_cross o (oaxis1 b) F) as (X01 & X11 & X21), (reach_cross o (oaxis2 b) F) as (X02 & X12 & X22).
  destruct (reach_cross' b (oaxis0 o) B) as (Y00 & Y01 & Y02), (reach_cross' b (oaxis1 o) B) as (Y10 & Y11 & Y12), (reach_cross' b (oaxis2 o) B) as (Y20 & Y21 & Y22).
  rewrite X00, X10, X20, X01, X11, X21, X02, X12, X22, Y00, Y01, Y02, Y10, Y11, Y12, Y20, Y21, Y22.
  rewrite !(Ro (oaxis0 b)), !(Ro (oaxis1 b)), !(Ro (oaxis2 b)). rewrite <- (P (oaxis0 b)), <- (P (oaxis1 b)), <- (P (oaxis2 b)). unfold reach.
  rewrite !(frame_cross (oaxis0 o) (oaxis1 o) (oaxis2 o) U0 U1 U2 O1 O2 O3 t), !(frame_cross (oaxis1 o) (oaxis2 o) (oaxis0 o) U1 U2 U0 O3 Q1 Q2 t), !(frame_cross (oaxis2 o) (oaxis0 o) (oaxis1 o) U2 U0 U1 Q2 Q3 O1 t).
  rewrite !(dot_comm (oaxis0 b)), !(dot_comm (oaxis1 b)), !(dot_comm (oaxis2 b)), ?(dot_comm (oaxis0 o) t), ?(dot_comm (oaxis1 o) t), ?(dot_comm (oaxis2 o) t).
  clear. repeat (apply and_iff; [apply not_iff; [ring|f_equal; ring]|]). apply not_iff; [ring|f_equal; ring].
Qed.
Lemma pcorners_obb (o : obb R) : framed o -> obb_ok o -> describes (OBB_shape o) (in_obb o) (pcorners (opos o) (oaxis0 o) (oaxis1 o) (oaxis2 o) (vx (orad o)) (vy (orad o)) (vz (orad o))).
Proof.
  intros F K. split; [apply convex_obb|]. split; [discriminate|]. assert (PC : forall s1 s2 s3, pcorner (opos o) (oaxis0 o) (oaxis1 o) (oaxis2 o) (vx (orad o)) (vy (orad o)) (vz (orad o)) s1 s2 s3 = at_ o (sg s1 * vx (orad o)) (sg s2 * vy (orad o)) (sg s3 * vz (orad o))) by reflexivity.
  split.
  - intros a A. apply pcorners_in in A. destruct A as (s1 & s2 & s3 & ->). rewrite PC. destruct K as (X & Y & Z). apply in_obb_at; [destruct s1|destruct s2|destruct s3]; cbn; lra.
  - intros n. cbn [OBB_shape sh_project]. rewrite project_R by exact K. split; [|split].
    + intros p P. pose proof (reach_bound o n p K P) as H. apply Rabs_le_inv2 in H. lra.
    + exists (OBB_ExtremePoint o (scale (-1) n)). split; [|pose proof (reach_extreme o (scale (-1) n) K) as E; rewrite reach_opp, !dot_scale_l in E; lra].
      rewrite extreme_R. apply pcorners_in. set (c0 := Rleb _ _). set (c1 := Rleb _ (dot _ (oaxis1 _))). set (c2 := Rleb _ (dot _ (oaxis2 _))). exists c0, c1, c2. rewrite PC. f_equal; [destruct c0|destruct c1|destruct c2]; cbn; ring.
    + exists (OBB_ExtremePoint o n). split; [|now apply reach_extreme].
      rewrite extreme_R. apply pcorners_in. set (c0 := Rleb _ _). set (c1 := Rleb _ (dot _ (oaxis1 _))). set (c2 := Rleb _ (dot _ (oaxis2 _))). exists c0, c1, c2. rewrite PC. f_equal; [destruct c0|destruct c1|destruct c2]; cbn; ring.
Qed.
Lemma frame_ind o : framed o -> independent (oaxis0 o) (oaxis1 o) (oaxis2 o).
Proof. intros (U0 & U1 & U2 & O1 & O2 & O3) w A B C. rewrite (expand _ _ _ w U0 U1 U2 O1 O2 O3), A, B, C. apply vec_ext; unfold origin; gunf; cbn; ring. Qed.
Lemma unit_nz (v : pt) : unitv v -> v <> origin. Proof. intros U ->. unfold unitv, origin, dot in U. cbn in U. lra. Qed.
Definition thick (o : obb R) : Prop := 0 < vx (orad o) /\ 0 < vy (orad o) /\ 0 < vz (orad o).
Lemma obb_axes o : framed o -> thick o -> axes_ok (pcorners (opos o) (oaxis0 o) (oaxis1 o) (oaxis2 o) (vx (orad o)) (vy (orad o)) (vz (orad o))) [oaxis0 o; oaxis1 o; oaxis2 o] [oaxis0 o; oaxis1 o; oaxis2 o].
Proof. intros F (X & Y & Z). destruct (frame_of o F) as (U0 & U1 & U2 & A & B & C & D & E & G). apply par_axes; try assumption; try (now apply unit_nz); now apply frame_ind. Qed.
Lemma thick_ok o : thick o -> obb_ok o. Proof. intros (X & Y & Z). unfold obb_ok. lra. Qed.
(** The generic separating axis test on two oriented boxes is exact. *)
Theorem C52_sat (o b : obb R) : framed o -> framed b -> thick o -> thick b -> (SATIntersect (OBB_shape o) (OBB_shape b) = true <-> exists p, in_obb o p /\ in_obb b p).
Proof.
  intros F B K L. pose proof (thick_ok o K) as K'. pose proof (thick_ok b L) as L'. eapply sat_exact; [now apply pcorners_obb|now apply pcorners_obb|now apply obb_axes|now apply obb_axes|].
  destruct K as (X & Y & Z). apply par_span; try assumption; [now apply frame_ind|discriminate].
Qed.
Print Assumptions C52_sat.
Lemma axes15_in (o b : obb R) L k : In (L, k) (axes15 o b) -> In L (sh_normals (OBB_shape o)) \/ In L (sh_normals (OBB_shape b)) \/ In L (crosses (sh_edges (OBB_shape o)) (sh_edges (OBB_shape b))).
Proof. unfold axes15. cbv zeta. cbn [In]. intros H. cbn -[cross]. repeat (destruct H as [H|H]; [apply (f_equal fst) in H; cbn [fst] in H; subst L; tauto|]). destruct H. Qed.
Lemma axes15_all (o b : obb R) L : In L (sh_normals (OBB_shape o)) \/ In L (sh_normals (OBB_shape b)) \/ In L (crosses (sh_edges (OBB_shape o)) (sh_edges (OBB_shape b))) -> exists k, In (L, k) (axes15 o b).
Proof.
  assert (E : map fst (axes15 o b) = sh_normals (OBB_shape o) ++ sh_normals (OBB_shape b) ++ crosses (sh_edges (OBB_shape o)) (sh_edges (OBB_shape b))) by reflexivity.
  intros H. assert (I : In L (map fst (axes15 o b))) by (rewrite E, !in_app_iff; exact H). apply in_map_iff in I. destruct I as ([L' k] & <- & I). now exists k.
Qed.
Lemma axes15_pos o b a : obb_ok o -> obb_ok b -> In a (axes15 o b) -> 0 <= snd a <= vx (orad o) + vy (orad o) + vz (orad o) + vx (orad b) + vy (orad b) + vz (orad b).
Proof. intros (X & Y & Z) (X' & Y' & Z') H. unfold axes15 in H. cbv zeta in H. cbn [In] in H. repeat (destruct H as [H|H]; [subst a; cbn [snd]; lra|]). destruct H. Qed.
(** A negative answer is always right, for every nonnegative tolerance, and boxes of any size (even flat). *)
Theorem C52_disjoint (o b : obb R) (eps : R) : framed o -> framed b -> obb_ok o -> obb_ok b -> 0 <= eps -> OBB_IntersectsOBB_eps o b eps = false -> forall p, in_obb o p -> in_obb b p -> False.
Proof.
  intros F B K L E H p P Q. apply not_true_iff_false in H. apply H, test_R; [exact F|exact B|]. intros [n k] I W. pose proof (axes15_pos o b _ K L I) as S. cbn [snd] in S. unfold wide_gap in W. cbn [fst snd] in W.
  apply (gap_disjoint o b n p K L); [unfold gap_on; nra|exact P|exact Q].
Qed.
Print Assumptions C52_disjoint.
(** With tolerance zero the answer is exact. *)
Theorem C52_exact (o b : obb R) : framed o -> framed b -> thick o -> thick b -> (OBB_IntersectsOBB_eps o b 0 = true <-> exists p, in_obb o p /\ in_obb b p).
Proof.
  intros F B K L. pose proof (thick_ok o K) as K'. pose proof (thick_ok b L) as L'. rewrite <- (C52_sat o b F B K L), (test_R o b 0 F B), sat_true. split.
  - intros H m M. apply not_true_is_false. rewrite sat_apart_R by assumption. intros G. destruct (axes15_all o b m M) as (k & I). apply (H _ I). unfold wide_gap. cbn [fst snd]. unfold gap_on in G. lra.
  - intros H [n k] I W. specialize (H n (axes15_in o b n k I)). apply not_true_iff_false in H. apply H, sat_apart_R; [assumption..|]. unfold wide_gap in W. cbn [fst snd] in W. unfold gap_on. lra.
Qed.
Print Assumptions C52_exact.
(** With a positive tolerance a positive answer is right up to a gap of the tolerance times the sum of the half sizes, on each of the fifteen axes;
    so boxes further apart than that are reported as disjoint. *)
Theorem C52_tolerance (o b : obb R) (eps : R) : framed o -> framed b -> obb_ok o -> obb_ok b -> 0 <= eps ->
  ((exists p, in_obb o p /\ in_obb b p) -> OBB_IntersectsOBB_eps o b eps = true) /\
  (OBB_IntersectsOBB_eps o b eps = true -> forall n, In n (oaxis0 o :: oaxis1 o :: oaxis2 o :: oaxis0 b :: oaxis1 b :: oaxis2 b :: crosses [oaxis0 o; oaxis1 o; oaxis2 o] [oaxis0 b; oaxis1 b; oaxis2 b]) ->
     exists p q, in_obb o p /\ in_obb b q /\ Rabs (dot n (minus p q)) <= eps * (vx (orad o) + vy (orad o) + vz (orad o) + vx (orad b) + vy (orad b) + vz (orad b))).
Proof.
  intros F B K L E. split.
  - intros (p & P & Q). destruct (OBB_IntersectsOBB_eps o b eps) eqn:H; [reflexivity|]. exfalso. exact (C52_disjoint o b eps F B K L E H p P Q).
  - intros H n N. rewrite test_R in H by assumption. assert (A : exists k, In (n, k) (axes15 o b)).
    { apply axes15_all. cbn [OBB_shape sh_normals sh_edges]. rewrite <- !in_app_iff. exact N. }
    destruct A as (k & I). specialize (H _ I). pose proof (axes15_pos o b _ K L I) as S. cbn [snd] in S. unfold wide_gap in H. cbn [fst snd] in H. set (s := vx (orad o) + _ + _ + _ + _ + _) in *.
    destruct (obb_range o n K) as [_ Go]. destruct (obb_range b n L) as [_ Gb]. set (c := dot n (opos o)) in *. set (d := dot n (opos b)) in *. rewrite (dot_comm _ n), dot_minus_r in H. fold c d in H.
    assert (R1 : 0 <= reach o n) by (destruct (obb_range o n K) as [W _]; lra). assert (R2 : 0 <= reach b n) by (destruct (obb_range b n L) as [W _]; lra).
    assert (H' : Rabs (d - c) <= reach o n + reach b n + eps * s) by nra. apply Rabs_le_inv2 in H'.
    assert (C : exists x y, c - reach o n <= x <= c + reach o n /\ d - reach b n <= y <= d + reach b n /\ Rabs (x - y) <= eps * s).
    { assert (0 <= eps * s) by (apply Rmult_le_pos; lra). destruct (Rle_or_lt (d - reach b n) (c + reach o n)); [destruct (Rle_or_lt (c - reach o n) (d + reach b n))|].
      - destruct (Rle_or_lt (c + reach o n) (d + reach b n)); [exists (c + reach o n), (c + reach o n)|exists (d + reach b n), (d + reach b n)]; (split; [lra|split; [lra|]]); rewrite Rminus_diag_eq, Rabs_R0 by reflexivity; assumption.
      - exists (c - reach o n), (d + reach b n). split; [lra|]. split; [lra|]. apply Rabs_le. lra.
      - exists (c + reach o n), (d - reach b n). split; [lra|]. split; [lra|]. apply Rabs_le. lra. }
    destruct C as (x & y & X & Y & D). apply Go in X. apply Gb in Y. destruct X as (p & P & Ep), Y as (q & Q & Eq). exists p, q. split; [exact P|]. split; [exact Q|]. rewrite dot_minus_r, Ep, Eq. exact D.
Qed.
Print Assumptions C52_tolerance.
(** Boxes made from aligned boxes and from spheres. *)
Lemma std_framed p r : framed (Obb p r (V3 1 0 0) (V3 0 1 0) (V3 0 0 1)).
Proof. unfold framed, unitv, orth, dot. cbn. repeat split; ring. Qed.
Theorem C52_from_aabb (b : aabb R) (s : sphere R) : framed (OBB_FromAABB b) /\ framed (OBB_FromSphere s) /\ (box_ok b -> obb_ok (OBB_FromAABB b)) /\ (solid b -> thick (OBB_FromAABB b)) /\
  (forall p, in_obb (OBB_FromAABB b) p <-> in_box b p) /\
  (0 <= srad s -> forall c, (forall p, in_box c p <-> in_obb (OBB_FromSphere s) p) -> forall d, (forall p, in_box c p -> in_box d p) <-> (forall p, in_sphere s p -> in_box d p)).
Proof.
  assert (FA : framed (OBB_FromAABB b)) by apply std_framed. assert (FS : framed (OBB_FromSphere s)) by apply std_framed. split; [exact FA|]. split; [exact FS|].
  unfold obb_ok, thick, box_ok, solid, OBB_FromAABB, AABB_HalfSize, AABB_Size. cbn [orad]. split; [vunf; cbn; intros; lra|]. split; [vunf; cbn; intros; lra|]. split.
  - intros p. fold (AABB_Size b). fold (AABB_HalfSize b). change (Obb _ _ _ _ _) with (OBB_FromAABB b). rewrite (in_obb_crd _ _ FA). unfold within_r, crd0, crd1, crd2, OBB_FromAABB, AABB_CenterPoint, AABB_HalfSize, AABB_Size, in_box, dot, minus. vunf. cbn. lra.
  - intros S c C d.
    destruct (C19_set_from_shapes (Obb origin origin ex ey ez) s ltac:(cbn; lra) S) as [_ W]. rewrite <- (W d).
    assert (E : forall p, in_box (AABB_FromSphere s) p <-> in_box c p); [|split; intros H p P; apply H, E, P].
    intros p. rewrite C, (in_obb_crd _ _ FS). unfold within_r, crd0, crd1, crd2, OBB_FromSphere, AABB_FromSphere, in_box, dot, minus. vunf. cbn. lra.
Qed.
Print Assumptions C52_from_aabb.
Theorem C52_aabb (o : obb R) (b : aabb R) : framed o -> obb_ok o -> box_ok b ->
  (OBB_IntersectsAABB o b = false -> forall p, in_obb o p -> in_box b p -> False) /\
  (thick o -> solid b -> (OBB_IntersectsOBB_eps o (OBB_FromAABB b) 0 = true <-> exists p, in_obb o p /\ in_box b p)).
Proof.
  intros F K B. destruct (C52_from_aabb b (Sph origin 0)) as (FA & _ & OK & TH & IN & _). split.
  - intros H p P Q. unfold OBB_IntersectsAABB, OBB_IntersectsOBB in H. apply (C52_disjoint o (OBB_FromAABB b) (nlit 1 1000) F FA K (OK B)) with p; [rewrite nlit_R; lra|exact H|exact P|now apply IN].
  - intros T S. rewrite (C52_exact o _ F FA T (TH S)). split; intros (p & P & Q); exists p; (split; [exact P|now apply IN]).
Qed.
Print Assumptions C52_aabb.
(** The default tolerance of 1e-3 is not exact: two unit boxes two thousandths apart are reported as intersecting. *)
Theorem C52_default_refuted : exists o b : obb R, framed o /\ framed b /\ thick o /\ thick b /\ OBB_IntersectsOBB o b = true /\ ~ exists p, in_obb o p /\ in_obb b p.
Proof.
  set (o := Obb (V3 0 0 0) (V3 1 1 1) (V3 1 0 0) (V3 0 1 0) (V3 0 0 1) : obb R). set (b := Obb (V3 (2002/1000) 0 0) (V3 1 1 1) (V3 1 0 0) (V3 0 1 0) (V3 0 0 1) : obb R).
  assert (F : framed o) by apply std_framed. assert (B : framed b) by apply std_framed. exists o, b. split; [exact F|]. split; [exact B|]. split; [unfold thick; cbn; lra|]. split; [unfold thick; cbn; lra|]. split.
  - unfold OBB_IntersectsOBB. apply test_R; [exact F|exact B|]. intros [n k] I. unfold wide_gap. rewrite nlit_R. cbn [fst snd].
    assert (P : forall v : pt, minus (opos b) (opos o) = V3 (2002/1000) 0 0) by (intros _; unfold minus; cbn; apply vec_ext; cbn; lra). rewrite (P n).
    assert (Ro : reach o n = Rabs (vx n) + Rabs (vy n) + Rabs (vz n)) by (unfold reach, dot, o; cbn; rewrite !Rmult_1_r, !Rmult_0_r, !Rplus_0_r, !Rplus_0_l; reflexivity).
    assert (Rb : reach b n = Rabs (vx n) + Rabs (vy n) + Rabs (vz n)) by (unfold reach, dot, b; cbn; rewrite !Rmult_1_r, !Rmult_0_r, !Rplus_0_r, !Rplus_0_l; reflexivity). rewrite Ro, Rb.
    replace (dot (V3 (2002/1000) 0 0) n) with (2002/1000 * vx n) by (unfold dot; cbn; ring). rewrite Rabs_mult, (Rabs_pos_eq (2002/1000)) by lra.
    pose proof (Rabs_pos (vy n)). pose proof (Rabs_pos (vz n)).
    assert (K3 : 3 <= k /\ Rabs (vx n) <= 1). { clear - I. unfold axes15, cross in I. cbn in I. repeat (destruct I as [I|I]; [injection I; clear I; intros I <-; subst k; cbn [vx vy vz]; (split; [lra|apply Rabs_le; lra])|]). destruct I. }
    lra.
  - intros (p & P & Q). apply (in_obb_crd o p F) in P. apply (in_obb_crd b p B) in Q. unfold within_r, crd0, crd1, crd2, o, b, dot, minus in P, Q. cbn in P, Q. lra.
Qed.
Print Assumptions C52_default_refuted.
(** Two boxes turned against each other, crossing. *)
Example C52_witness : exists o b : obb R, framed o /\ framed b /\ thick o /\ thick b /\ oaxis0 o <> oaxis0 b /\ OBB_IntersectsOBB_eps o b 0 = true.
Proof.
  set (o := Obb (V3 0 0 0) (V3 1 2 3) (V3 1 0 0) (V3 0 1 0) (V3 0 0 1) : obb R). set (b := Obb (V3 1 2 2) (V3 1 1 1) (V3 (3/5) (4/5) 0) (V3 (-(4/5)) (3/5) 0) (V3 0 0 (-1)) : obb R).
  assert (F : framed o) by apply std_framed. assert (B : framed b) by (unfold framed, unitv, orth, dot; cbn; repeat split; field).
  exists o, b. split; [exact F|]. split; [exact B|]. split; [unfold thick; cbn; lra|]. split; [unfold thick; cbn; lra|]. split; [intros E; apply (f_equal vx) in E; cbn in E; lra|].
  apply C52_exact; [exact F|exact B|unfold thick; cbn; lra|unfold thick; cbn; lra|]. exists (V3 1 2 2). split; [apply (in_obb_crd o _ F)|apply (in_obb_crd b _ B)]; unfold within_r, crd0, crd1, crd2, o, b, dot, minus; cbn; lra.
Qed.
