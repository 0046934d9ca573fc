(** Properties C19-C25 of AABB. *)
From Coq Require Import Reals Lra Psatz ZArith Bool List Permutation Lia Btauto.
From Coq Require Import Floats.SpecFloat.
From Flocq Require Import Core.Core IEEE754.BinarySingleNaN.
From Verif Require Import Num NumR F32 F32Laws F32Lemmas ScalarModel ScalarProofs ScalarProps Vec3Model GeoTypes GeoSpec GeoLemmas
  Vec3Props AabbModel AabbSpec AabbProofs.
Import ListNotations.
Ltac Zify.zify_post_hook ::= idtac.

(** ** C19 *)
(** A history of Enclose calls with inputs handled by comparisons only (any ordered scalar: R, binary32). *)
Inductive cmp_item (T : Type) :=
| IPoint (p : vec T) | IMinMax (mn mx : vec T) | ISeg (s : segment T) | ITri (t : triangle T).
Arguments IPoint {T}. Arguments IMinMax {T}. Arguments ISeg {T}. Arguments ITri {T}.
(** The points that define the item (a box by its two corners). *)
Definition cmp_points {T} (i : cmp_item T) : list (vec T) :=
  match i with
  | IPoint p => [p] | IMinMax mn mx => [mn; mx] | ISeg s => [seg_a s; seg_b s] | ITri t => [tri_a t; tri_b t; tri_c t]
  end.
Definition cmp_ok {T} `{OrdLaws T} (i : cmp_item T) : Prop :=
  (forall p, In p (cmp_points i) -> okv p) /\ match i with IMinMax mn mx => nonempty (Box mn mx) | _ => True end.
(** The Enclose call made for an item. *)
Definition enclose_cmp {T} `{Num T} (b : aabb T) (i : cmp_item T) : aabb T :=
  match i with
  | IPoint p => AABB_Enclose b p
  | IMinMax mn mx => AABB_EncloseMinMax b mn mx
  | ISeg s => AABB_EncloseSegment b s
  | ITri t => AABB_EncloseTriangle b t
  end.

Section C19.
  Context {T : Type} `{OL : OrdLaws T}.

  Lemma enclose_cmp_within b i c : okb b -> cmp_ok i ->
    okb (enclose_cmp b i) /\ (within (enclose_cmp b i) c <-> within b c /\ forall p, In p (cmp_points i) -> inside c p).
  Proof.
    intros Ob [Op Hn]. destruct i as [p|mn mx|s|t]; cbn [enclose_cmp cmp_points] in *.
    - assert (P : okv p) by (apply Op; now left). split; [now apply encloseMM_okb|].
      change (AABB_Enclose b p) with (AABB_EncloseMinMax b p p). rewrite encloseMM_within by assumption. rewrite <- inside_within.
      split; [intros [A B]; split; [exact A|]; intros q [<-|[]]; exact B|intros [A B]; split; [exact A|]; apply B; now left].
    - assert (P : okv mn) by (apply Op; now left). assert (P2 : okv mx) by (apply Op; now right; left).
      split; [now apply encloseMM_okb|]. rewrite encloseMM_within, box_within by assumption.
      split; [intros (A & B & C); split; [exact A|]; intros q [<-|[<-|[]]]; assumption|].
      intros [A B]; split; [exact A|]; split; apply B; cbn; auto.
    - assert (P : okv (seg_a s)) by (apply Op; now left). assert (P2 : okv (seg_b s)) by (apply Op; now right; left).
      unfold AABB_EncloseSegment. split; [apply encloseMM_okb; auto using okv_vMin, okv_vMax|].
      rewrite encloseMM_within, seg_within by auto using okv_vMin, okv_vMax.
      split; [intros (A & B & C); split; [exact A|]; intros q [<-|[<-|[]]]; assumption|].
      intros [A B]; split; [exact A|]; split; apply B; cbn; auto.
    - assert (P : okv (tri_a t)) by (apply Op; now left). assert (P2 : okv (tri_b t)) by (apply Op; now right; left).
      assert (P3 : okv (tri_c t)) by (apply Op; now right; right; left).
      unfold AABB_EncloseTriangle. split; [apply encloseMM_okb; auto using okv_vMin, okv_vMax|].
      rewrite encloseMM_within, tri_within by auto using okv_vMin, okv_vMax.
      split; [intros (A & B & C & D); split; [exact A|]; intros q [<-|[<-|[<-|[]]]]; assumption|].
      intros [A B]; split; [exact A|]; repeat split; apply B; cbn; auto.
  Qed.
  Lemma enclose_all_within items : forall b c, okb b -> Forall cmp_ok items ->
    okb (fold_left enclose_cmp items b) /\
    (within (fold_left enclose_cmp items b) c <->
     within b c /\ forall i p, In i items -> In p (cmp_points i) -> inside c p).
  Proof.
    induction items as [|i r IH]; intros b c Ob F; cbn [fold_left].
    - split; [exact Ob|]. split; [intros W; split; [exact W|]; intros ? ? []|tauto].
    - inversion F as [|? ? F1 F2]; subst. destruct (enclose_cmp_within b i c Ob F1) as [O1 W1].
      destruct (IH _ c O1 F2) as [O2 W2]. split; [exact O2|]. rewrite W2, W1. split.
      + intros [[A B] C]. split; [exact A|]. intros j p [<-|J]; eauto.
      + intros [A B]. split; [split; [exact A|]; intros p Hp; apply (B i p); [now left|exact Hp]|]. intros j p Hj Hp. apply (B j p); [now right|exact Hp].
  Qed.

  (** Whatever the sequence, the result covers the starting box and every item, and every box that does so covers it. *)
  Theorem C19_enclose_history : forall items b, okb b -> Forall cmp_ok items ->
    let r := fold_left enclose_cmp items b in
    within b r /\
    (forall i p, In i items -> In p (cmp_points i) -> inside r p) /\
    (forall c, within b c -> (forall i p, In i items -> In p (cmp_points i) -> inside c p) -> within r c).
  Proof.
    intros items b Ob F r. destruct (enclose_all_within items b r Ob F) as [Or W]. fold r in Or, W.
    apply proj1 in W. specialize (W (within_refl r Or)). split; [apply W|]. split; [apply W|].
    intros c A B. now apply (enclose_all_within items b c Ob F).
  Qed.
  (** ... in whatever order the calls are made. *)
  Theorem C19_enclose_order : forall items items' b, okb b -> Forall cmp_ok items -> Permutation items items' ->
    same_box (fold_left enclose_cmp items b) (fold_left enclose_cmp items' b).
  Proof.
    intros items items' b Ob F P. assert (F' : Forall cmp_ok items') by (now rewrite <- P).
    destruct (C19_enclose_history items b Ob F) as (A1 & A2 & A3). destruct (C19_enclose_history items' b Ob F') as (B1 & B2 & B3).
    split; [apply A3|apply B3]; try assumption; intros i p Hi Hp.
    - apply (B2 i); [now rewrite <- P|assumption].
    - apply (A2 i); [now rewrite P|assumption].
  Qed.
End C19.
Print Assumptions C19_enclose_history.
Print Assumptions C19_enclose_order.

(** The binary32 run from SetNegativeInfinity: no starting box is left over, and the answer is exact. *)
Theorem C19_from_negative_infinity_f32 : forall items : list (cmp_item f32), Forall cmp_ok items ->
  let r := fold_left enclose_cmp items (AABB_NegativeInfinity : aabb f32) in
  (forall i p, In i items -> In p (cmp_points i) -> inside r p) /\
  (forall c, okb c -> (forall i p, In i items -> In p (cmp_points i) -> inside c p) -> within r c).
Proof.
  assert (L1 : forall x : f32, ok x -> nleb x ninf = true) by (intros [s|[|]| |s m e B] O; try reflexivity; discriminate O).
  assert (L2 : forall x : f32, ok x -> nleb (nneg ninf) x = true) by (intros [s|[|]| |s m e B] O; try reflexivity; discriminate O).
  intros items F r. assert (O : okb (AABB_NegativeInfinity : aabb f32)) by (repeat split).
  destruct (C19_enclose_history items _ O F) as (A1 & A2 & A3). fold r in A1, A2, A3. split; [exact A2|].
  intros c [(O1&O2&O3) (O4&O5&O6)] H. apply A3; [|exact H]. repeat split; (apply L1 || apply L2); assumption.
Qed.
Print Assumptions C19_from_negative_infinity_f32.
(** SetFrom(points)/MinimalEnclosingAABB(points) is such a run. *)
Theorem C19_set_from_points_f32 : forall ps : list (vec f32), (forall p, In p ps -> okv p) ->
  (forall p, In p ps -> inside (AABB_SetFromPoints ps) p) /\
  (forall c, okb c -> (forall p, In p ps -> inside c p) -> within (AABB_SetFromPoints ps) c).
Proof.
  intros ps O.
  assert (E : AABB_SetFromPoints ps = fold_left enclose_cmp (map IPoint ps) (AABB_NegativeInfinity : aabb f32)).
  { unfold AABB_SetFromPoints, AABB_EnclosePoints. generalize (AABB_NegativeInfinity : aabb f32). clear O.
    induction ps as [|p r IH]; intros b; [reflexivity|]. cbn [map fold_left]. apply IH. }
  assert (F : Forall cmp_ok (map IPoint ps)).
  { apply Forall_forall. intros i Hi. apply in_map_iff in Hi. destruct Hi as (p & <- & Hp). split; [|exact I].
    intros q [<-|[]]. now apply O. }
  destruct (C19_from_negative_infinity_f32 _ F) as [A B]. rewrite <- E in A, B. split.
  - intros p Hp. apply (A (IPoint p)); [now apply in_map|now left].
  - intros c Oc H. apply B; [exact Oc|]. intros i p Hi Hp. apply in_map_iff in Hi. destruct Hi as (q & <- & Hq).
    destruct Hp as [<-|[]]. now apply H.
Qed.
Print Assumptions C19_set_from_points_f32.
Example C19_f32_witness :
  let p (a b c : Z) := V3 (f32_of_bits a) (f32_of_bits b) (f32_of_bits c) : vec f32 in
  let r := AABB_SetFromPoints [p 0x3F800000 0x80000000 0x40000000; p 0xBF800000 0x00000001 0xFF800000]%Z in
  r = Box (p 0xBF800000 0x80000000 0xFF800000)%Z (p 0x3F800000 0x00000001 0x40000000)%Z.
Proof. reflexivity. Qed.

Open Scope R_scope.
(** All kinds of items, over R, as point sets. *)
Inductive item :=
| RPoint (p : pt) | RBox (b : aabb R) | RSeg (s : segment R) | RTri (t : triangle R)
| RSphere (s : sphere R) | ROBB (o : obb R) | RCapsule (c : capsule R).
Definition item_set (i : item) : pt -> Prop :=
  match i with
  | RPoint p => eq p | RBox b => in_box b | RSeg s => on_segment s | RTri t => in_triangle t
  | RSphere s => in_sphere s | ROBB o => in_obb o | RCapsule c => in_capsule c
  end.
Definition item_ok (i : item) : Prop :=
  match i with
  | RBox b => box_ok b | RSphere s => 0 <= srad s
  | ROBB o => 0 <= vx (orad o) /\ 0 <= vy (orad o) /\ 0 <= vz (orad o) | RCapsule c => 0 <= cap_r c | _ => True
  end.
Definition enclose_item (b : aabb R) (i : item) : aabb R :=
  match i with
  | RPoint p => AABB_Enclose b p | RBox c => AABB_EncloseMinMax b (minPoint c) (maxPoint c) | RSeg s => AABB_EncloseSegment b s
  | RTri t => AABB_EncloseTriangle b t | RSphere s => AABB_EncloseSphere b s | ROBB o => AABB_EncloseOBB b o
  | RCapsule c => AABB_EncloseCapsule b c
  end.
Lemma tight_point p : tight (eq p) (Box p p).
Proof. unfold tight, in_box. cbn. split; [intros q <-; lra|]. repeat split; now exists p. Qed.
Lemma tight_box b : box_ok b -> tight (in_box b) b.
Proof.
  intros (A&B&C). unfold tight. split; [tauto|]. unfold in_box.
  split; [exists (minPoint b)|split; [exists (maxPoint b)|split; [exists (minPoint b)|split; [exists (maxPoint b)|split; [exists (minPoint b)|exists (maxPoint b)]]]]]; lra.
Qed.
Lemma obb_half_model o : vadd (vadd (smulv (vx (orad o)) (vAbs (oaxis0 o))) (smulv (vy (orad o)) (vAbs (oaxis1 o)))) (smulv (vz (orad o)) (vAbs (oaxis2 o))) = obb_half o.
Proof. unfold obb_half, vadd, smulv, vAbs. cbn [vx vy vz]. rewrite !Abs_R. rsimpl. reflexivity. Qed.
Lemma enclose_item_within b i c : item_ok i ->
  (within (enclose_item b i) c <-> within b c /\ forall p, item_set i p -> in_box c p).
Proof.
  intros K. destruct i as [p|d|s|t|s|o|k]; cbn [enclose_item item_set item_ok] in *.
  - change (AABB_Enclose b p) with (AABB_EncloseMinMax b p p). rewrite encloseMM_within by auto.
    now rewrite (tight_within _ _ c (tight_point p)).
  - rewrite encloseMM_within by auto. assert (E : Box (minPoint d) (maxPoint d) = d) by now destruct d. rewrite E.
    now rewrite (tight_within _ _ c (tight_box d K)).
  - unfold AABB_EncloseSegment. rewrite encloseMM_within by auto. now rewrite (tight_within _ _ c (tight_segment s)).
  - unfold AABB_EncloseTriangle. rewrite encloseMM_within by auto. now rewrite (tight_within _ _ c (tight_triangle t)).
  - unfold AABB_EncloseSphere. rewrite encloseMM_within by auto. now rewrite (tight_within _ _ c (tight_sphere s K)).
  - unfold AABB_EncloseOBB. rewrite obb_half_model. rewrite encloseMM_within by auto. toR. now rewrite (tight_within _ _ c (tight_obb o K)).
  - change (AABB_EncloseCapsule b k) with (AABB_EncloseMinMax b (vsub (vMin (seg_a (cap_l k)) (seg_b (cap_l k))) (FromScalar (cap_r k)))
      (vadd (vMax (seg_a (cap_l k)) (seg_b (cap_l k))) (FromScalar (cap_r k)))).
    rewrite encloseMM_within by auto. now rewrite (tight_within _ _ c (tight_capsule k K)).
Qed.
Lemma within_points b c : box_ok b -> (within b c <-> forall p, in_box b p -> in_box c p).
Proof. intros K. apply tight_within, tight_box, K. Qed.
Theorem C19_enclose_shapes : forall items b, box_ok b -> Forall item_ok items ->
  let r := fold_left enclose_item items b in
  (forall p, in_box b p -> in_box r p) /\
  (forall i p, In i items -> item_set i p -> in_box r p) /\
  (forall c, (forall p, in_box b p -> in_box c p) -> (forall i p, In i items -> item_set i p -> in_box c p) ->
     forall p, in_box r p -> in_box c p).
Proof.
  intros items b Kb F r.
  assert (W : forall c, within r c <-> within b c /\ forall i p, In i items -> item_set i p -> in_box c p).
  { unfold r. clear r Kb. revert b F. induction items as [|i l IH]; intros b F c; cbn [fold_left].
    - split; [intros H; split; [exact H|intros ? ? []]|tauto].
    - inversion F; subst. rewrite IH, enclose_item_within by assumption. split.
      + intros [[A B] C]. split; [exact A|]. intros j p [<-|J]; eauto.
      + intros [A B]. split; [split; [exact A|]; intros p Hp; apply (B i p); [now left|exact Hp]|]. intros j p Hj Hp. apply (B j p); [now right|exact Hp]. }
  destruct (proj1 (W r) (within_refl r (okb_R r))) as [A B]. split; [now apply within_points|]. split; [exact B|].
  intros c C1 C2 p Hp. apply inside_R. eapply within_inside; [apply W|now apply inside_R]. split; [now apply within_points|exact C2].
Qed.
Print Assumptions C19_enclose_shapes.
(** SetFrom(OBB) and SetFrom(Sphere): the smallest box around the shape. *)
Theorem C19_set_from_shapes : forall (o : obb R) (s : sphere R), item_ok (ROBB o) -> item_ok (RSphere s) ->
  (forall c, (forall p, in_box (AABB_FromOBB o) p -> in_box c p) <-> (forall p, in_obb o p -> in_box c p)) /\
  (forall c, (forall p, in_box (AABB_FromSphere s) p -> in_box c p) <-> (forall p, in_sphere s p -> in_box c p)).
Proof.
  intros o s Ko Ks. pose proof (tight_obb o Ko) as To. pose proof (tight_sphere s Ks) as Ts.
  assert (E : AABB_FromOBB o = Box (minus (opos o) (obb_half o)) (plus (opos o) (obb_half o))).
  { unfold AABB_FromOBB, AABB_SetFromCenterAndSize. cbn [item_ok] in Ko. destruct Ko as (R1 & R2 & R3).
    unfold vadd, vsub, smulv, vmuls, vAbs, obb_half, minus, plus. cbn [vx vy vz]. rewrite !Abs_R. rsimpl.
    rewrite !Rabs_mult, !(Rabs_pos_eq (vx (orad o))), !(Rabs_pos_eq (vy (orad o))), !(Rabs_pos_eq (vz (orad o))) by assumption.
    f_equal; apply vec_ext; cbn [vx vy vz]; field. }
  assert (Bo : box_ok (AABB_FromOBB o)).
  { rewrite E. destruct To as (I & (p & Sp & _) & _). specialize (I p Sp). unfold in_box, box_ok in *. cbn in *. lra. }
  assert (Bs : box_ok (AABB_FromSphere s)).
  { destruct Ts as (I & (p & Sp & _) & _). specialize (I p Sp). unfold in_box, box_ok, AABB_FromSphere in *. cbn in *. lra. }
  split; intros c; (rewrite <- within_points by assumption); [rewrite E; now apply tight_within|].
  unfold AABB_FromSphere. cbv zeta. now apply tight_within.
Qed.
Print Assumptions C19_set_from_shapes.
Example C19_witness : box_ok (Box (V3 0 0 0) (V3 0 0 0)) /\
  Forall item_ok [RSphere (Sph (V3 1 2 3) 2); ROBB (Obb (V3 0 0 0) (V3 1 2 3) (V3 (3/5) (4/5) 0) (V3 (-4/5) (3/5) 0) (V3 0 0 1));
    RCapsule (Cap (Seg (V3 0 0 0) (V3 1 1 1)) 1)] /\ item_set (RSphere (Sph (V3 1 2 3) 2)) (V3 1 2 1).
Proof.
  split; [unfold box_ok; cbn; lra|]. split; [repeat constructor; cbn; lra|]. cbn. unfold in_sphere, dist, norm. cbn [spos srad].
  replace (dot _ _) with (2 * 2) by (gunf; ring). rewrite sqrt_square; lra.
Qed.

(** ** C20 *)
Section C20.
  Context {T : Type} `{OL : OrdLaws T}.
  Theorem C20_contains_point : forall b (p : vec T), AABB_Contains b p = true <-> inside b p.
  Proof. intros. unfold AABB_Contains, inside. rewrite !andb_true_iff. tauto. Qed.
  (** Contains(AABB), Contains(segment): exactly if every point is contained. *)
  Theorem C20_contains_box : forall b c : aabb T, okb c -> nonempty c ->
    (AABB_ContainsAABB b c = true <-> forall p, inside c p -> inside b p).
  Proof.
    intros b c [(O1&O2&O3) (O4&O5&O6)] (N1&N2&N3). unfold AABB_ContainsAABB, AABB_ContainsMinMax. rewrite !andb_true_iff. split.
    - intros (((((?&?)&?)&?)&?)&?) p ((?&?)&(?&?)&(?&?)). repeat split; eauto using leb_trans.
    - intros HI. assert (A : inside b (minPoint c)) by (apply HI; repeat split; auto using leb_refl_ok).
      assert (B : inside b (maxPoint c)) by (apply HI; repeat split; auto using leb_refl_ok).
      destruct A as ((?&?)&(?&?)&(?&?)), B as ((?&?)&(?&?)&(?&?)). tauto.
  Qed.
  Theorem C20_intersection : forall (a b : aabb T) p, okb a -> okb b ->
    (inside (AABB_Intersection a b) p <-> inside a p /\ inside b p).
  Proof.
    intros a b p [(?&?&?) (?&?&?)] [(?&?&?) (?&?&?)]. unfold inside, AABB_Intersection, vMin, vMax. cbn [minPoint maxPoint vx vy vz].
    rewrite !le_min, !max_le by assumption. tauto.
  Qed.
  (** Intersects(AABB) false: no point is inside both interiors (and symmetric). *)
  Theorem C20_disjoint : forall (a b : aabb T) p, okb a -> okb b -> okv p -> AABB_Intersects a b = false ->
    ~ (interior a p /\ interior b p).
  Proof.
    intros a b p [(?&?&?) (?&?&?)] [(?&?&?) (?&?&?)] (?&?&?) F (((A1&A2)&(A3&A4)&(A5&A6)) & ((B1&B2)&(B3&B4)&(B5&B6))).
    assert (LT : forall x y z : T, ok x -> ok y -> ok z -> nltb x y = true -> nltb y z = true -> nltb x z = true).
    { intros x y z Ox Oy Oz. rewrite !ltb_leb, !negb_true_iff by assumption. intros X Y. destruct (nleb z x) eqn:E; [|reflexivity].
      exfalso. assert (nleb x y = true) by now apply leb_false_sym. rewrite (leb_trans z x y) in Y by assumption. discriminate. }
    unfold AABB_Intersects in F.
    rewrite (LT _ (vx p) _) in F by assumption. rewrite (LT _ (vy p) _) in F by assumption. rewrite (LT _ (vz p) _) in F by assumption.
    rewrite (LT _ (vx p) _) in F by assumption. rewrite (LT _ (vy p) _) in F by assumption. rewrite (LT _ (vz p) _) in F by assumption.
    discriminate.
  Qed.
  Theorem C20_symmetric : forall a b : aabb T, AABB_Intersects a b = AABB_Intersects b a.
  Proof. intros. unfold AABB_Intersects. btauto. Qed.
End C20.
Print Assumptions C20_contains_point.
Print Assumptions C20_contains_box.
Print Assumptions C20_intersection.
Print Assumptions C20_disjoint.
(** Over R: Intersects is exactly "the interiors meet". *)
Theorem C20_intersects : forall a b : aabb R,
  AABB_IsDegenerate a = false -> AABB_IsDegenerate b = false ->
  (AABB_Intersects a b = true <->
   exists p : pt, (vx (minPoint a) < vx p < vx (maxPoint a) /\ vy (minPoint a) < vy p < vy (maxPoint a) /\ vz (minPoint a) < vz p < vz (maxPoint a)) /\
                  (vx (minPoint b) < vx p < vx (maxPoint b) /\ vy (minPoint b) < vy p < vy (maxPoint b) /\ vz (minPoint b) < vz p < vz (maxPoint b))).
Proof.
  intros a b. unfold AABB_IsDegenerate, AABB_Intersects. rsimpl. rewrite !negb_false_iff, !andb_true_iff, !Rltb_true.
  intros ((?&?)&?) ((?&?)&?). split.
  - intros (((((?&?)&?)&?)&?)&?).
    assert (M : forall l1 h1 l2 h2, l1 < h1 -> l2 < h2 -> l1 < h2 -> l2 < h1 -> exists x, l1 < x < h1 /\ l2 < x < h2).
    { intros l1 h1 l2 h2 ? ? ? ?. exists ((Rmax l1 l2 + Rmin h1 h2) / 2). unfold Rmax, Rmin. destruct (Rle_dec l1 l2), (Rle_dec h1 h2); lra. }
    destruct (M (vx (minPoint a)) (vx (maxPoint a)) (vx (minPoint b)) (vx (maxPoint b))) as [x X]; try assumption.
    destruct (M (vy (minPoint a)) (vy (maxPoint a)) (vy (minPoint b)) (vy (maxPoint b))) as [y Y]; try assumption.
    destruct (M (vz (minPoint a)) (vz (maxPoint a)) (vz (minPoint b)) (vz (maxPoint b))) as [z Z]; try assumption.
    exists (V3 x y z). cbn. tauto.
  - intros (p & ?). lra.
Qed.
Print Assumptions C20_intersects.
Theorem C20_contains_shapes : forall (b : aabb R) (s : segment R) (k : sphere R), 0 <= srad k ->
  (AABB_ContainsSegment b s = true <-> forall p, on_segment s p -> in_box b p) /\
  (AABB_ContainsSphere b k = true <-> forall p, in_sphere k p -> in_box b p).
Proof.
  intros b s k Hk.
  assert (E : forall mn mx, AABB_ContainsMinMax b mn mx = true <-> within (Box mn mx) b).
  { intros. unfold AABB_ContainsMinMax, within. rewrite !andb_true_iff. cbn [minPoint maxPoint]. tauto. }
  unfold AABB_ContainsSegment, AABB_ContainsSphere. rewrite !E.
  rewrite (tight_within _ _ b (tight_segment s)), (tight_within _ _ b (tight_sphere k Hk)). tauto.
Qed.
Print Assumptions C20_contains_shapes.
Example C20_witness : AABB_IsDegenerate (Box (V3 0 0 0) (V3 1 1 1) : aabb R) = false /\
  AABB_Intersects (Box (V3 0 0 0) (V3 1 1 1) : aabb R) (Box (V3 1 0 0) (V3 2 1 1)) = false /\
  AABB_Contains (Box (V3 0 0 0) (V3 1 1 1) : aabb R) (V3 1 0 0) = true /\
  AABB_Contains (Box (V3 1 0 0) (V3 2 1 1) : aabb R) (V3 1 0 0) = true.
Proof.
  unfold AABB_IsDegenerate, AABB_Intersects, AABB_Contains. rsimpl. cbn [minPoint maxPoint vx vy vz].
  repeat split; repeat rcase; cbn; reflexivity || lra.
Qed.

(** ** C21 *)
Section C21.
  Context {T : Type} `{OL : OrdLaws T}.
  Lemma clamp_coord (x lo hi : T) : ok x -> nleb lo hi = true ->
    let c := Max (Min x hi) lo in
    nleb lo c = true /\ nleb c hi = true /\
    (c = x \/ (nleb x lo = true /\ c = lo) \/ (nleb hi x = true /\ c = hi)) /\ (nleb lo x = true -> nleb x hi = true -> c = x).
  Proof.
    intros Ox L c. destruct (leb_ok lo hi L) as [Olo Ohi]. unfold c, Max, Min.
    destruct (nleb x hi) eqn:E1.
    - destruct (nleb lo x) eqn:E2.
      + repeat split; auto.
      + repeat split; auto using leb_refl_ok, leb_false_sym. discriminate.
    - rewrite L. repeat split; auto using leb_refl_ok, leb_false_sym. discriminate.
  Qed.
  (** ClosestPoint is in the box, and is the target if that is inside; each coordinate is the target's or the bound on that side. *)
  Theorem C21_closest_inside : forall (b : aabb T) p, nonempty b -> okv p ->
    inside b (AABB_ClosestPoint b p) /\ (inside b p -> AABB_ClosestPoint b p = p).
  Proof.
    intros b p (N1&N2&N3) (O1&O2&O3). unfold AABB_ClosestPoint, vClamp, vMin, vMax, inside. cbn [vx vy vz].
    destruct (clamp_coord (vx p) _ _ O1 N1) as (A1&A2&_&A3). destruct (clamp_coord (vy p) _ _ O2 N2) as (B1&B2&_&B3).
    destruct (clamp_coord (vz p) _ _ O3 N3) as (C1&C2&_&C3). split; [tauto|].
    intros ((?&?)&(?&?)&(?&?)). rewrite A3, B3, C3 by assumption. now destruct p.
  Qed.
End C21.
Print Assumptions C21_closest_inside.
Lemma clamp1_nearest x lo hi q : lo <= hi -> lo <= q <= hi ->
  (Rmax (Rmin x hi) lo - x) * (Rmax (Rmin x hi) lo - x) <= (q - x) * (q - x).
Proof.
  intros. unfold Rmax, Rmin. destruct (Rle_dec x hi); [destruct (Rle_dec x lo)|destruct (Rle_dec hi lo)].
  - nra.
  - replace ((x - x) * (x - x)) with 0 by ring. apply Rle_0_sqr.
  - nra.
  - nra.
Qed.
Theorem C21_closest_nearest : forall (b : aabb R) p q, box_ok b -> in_box b q ->
  dist (AABB_ClosestPoint b p) p <= dist q p /\ AABB_Distance b p <= dist q p.
Proof.
  intros b p q (N1&N2&N3) (Q1&Q2&Q3). unfold AABB_Distance. toR.
  cut (dist (AABB_ClosestPoint b p) p <= dist q p); [tauto|]. unfold dist. apply norm_le_cmp.
  unfold AABB_ClosestPoint, vClamp, vMin, vMax. cbn [vx vy vz]. rewrite !Min_R, !Max_R. unfold dot, minus. cbn [vx vy vz].
  pose proof (clamp1_nearest (vx p) _ _ _ N1 Q1). pose proof (clamp1_nearest (vy p) _ _ _ N2 Q2). pose proof (clamp1_nearest (vz p) _ _ _ N3 Q3). lra.
Qed.
Print Assumptions C21_closest_nearest.
Lemma closest_in_box b p : box_ok b -> in_box b (AABB_ClosestPoint b p).
Proof. intros K. apply inside_R, C21_closest_inside; [now apply nonempty_R|auto]. Qed.
Theorem C21_distance : forall (b : aabb R) p (s : sphere R), box_ok b -> 0 <= srad s ->
  (AABB_Distance b p = 0 <-> in_box b p) /\
  (** the distance to a sphere: not more than any pair's distance, and attained *)
  (forall x y, in_box b x -> in_sphere s y -> AABB_DistanceSphere b s <= dist x y) /\
  (exists x y, in_box b x /\ in_sphere s y /\ AABB_DistanceSphere b s = dist x y).
Proof.
  intros b p s K Hr. split; [|split].
  - unfold AABB_Distance. toR. rewrite dist_zero. split.
    + intros <-. now apply closest_in_box.
    + intros I. apply C21_closest_inside; [now apply nonempty_R|auto|now apply inside_R].
  - intros x y X Y. unfold AABB_DistanceSphere. rewrite Max_R. rsimpl. destruct (C21_closest_nearest b (spos s) x K X) as [_ D].
    pose proof (dist_triangle x y (spos s)). unfold in_sphere in Y. rewrite (dist_sym y) in H. pose proof (norm_pos (minus x y)). fold (dist x y) in *.
    unfold Rmax. destruct (Rle_dec _ _); unfold dist in *; lra.
  - set (c := AABB_ClosestPoint b (spos s)). pose proof (closest_in_box b (spos s) K) as C. fold c in C.
    unfold AABB_DistanceSphere, AABB_Distance. fold c. rewrite Max_R. toR. rsimpl.
    destruct (Rle_dec (dist c (spos s)) (srad s)) as [L|G].
    + exists c, c. split; [exact C|]. split; [unfold in_sphere; now rewrite dist_sym|].
      rewrite (proj2 (dist_zero c c) eq_refl). unfold Rmax. destruct (Rle_dec _ _); lra.
    + set (D := dist c (spos s)) in *. assert (DP : 0 < D) by lra.
      exists c, (plus (spos s) (scale (srad s / D) (minus c (spos s)))). split; [exact C|]. split.
      * unfold in_sphere, dist. replace (minus (spos s) _) with (scale (- (srad s / D)) (minus c (spos s))) by (apply vec_ext; cbn; ring).
        rewrite norm_scale, Rabs_Ropp, Rabs_pos_eq by (apply Rmult_le_pos; [lra|left; now apply Rinv_0_lt_compat]).
        fold (dist c (spos s)). fold D. apply Req_le. field. lra.
      * unfold dist. replace (minus c (plus _ _)) with (scale (1 - srad s / D) (minus c (spos s))) by (apply vec_ext; cbn; ring).
        rewrite norm_scale. fold (dist c (spos s)). fold D.
        assert (0 <= 1 - srad s / D).
        { apply Rmult_le_reg_r with D; [exact DP|]. replace ((1 - srad s / D) * D) with (D - srad s) by (field; lra). lra. }
        rewrite Rabs_pos_eq by assumption. replace ((1 - srad s / D) * D) with (D - srad s) by (field; lra).
        unfold Rmax. destruct (Rle_dec _ _); lra.
Qed.
Print Assumptions C21_distance.
(** In binary32, for finite boxes and points, ClosestPoint is the exact nearest point: no real point of the box is nearer. *)
Definition realv (v : vec f32) : pt := V3 (B2R (vx v)) (B2R (vy v)) (B2R (vz v)).
Definition finitev (v : vec f32) : Prop := is_finite (vx v) = true /\ is_finite (vy v) = true /\ is_finite (vz v) = true.
Theorem C21_closest_nearest_f32 : forall (b : aabb f32) p, finitev (minPoint b) -> finitev (maxPoint b) -> finitev p -> nonempty b ->
  finitev (AABB_ClosestPoint b p) /\ in_box (Box (realv (minPoint b)) (realv (maxPoint b))) (realv (AABB_ClosestPoint b p)) /\
  forall q : pt, in_box (Box (realv (minPoint b)) (realv (maxPoint b))) q ->
    dist (realv (AABB_ClosestPoint b p)) (realv p) <= dist q (realv p).
Proof.
  assert (LF : forall x y : f32, is_finite x = true -> is_finite y = true -> nleb x y = true -> B2R x <= B2R y).
  { intros x y Fx Fy L. change (Bleb x y = true) in L. rewrite (leb_finite x y Fx Fy) in L. revert L. case Rle_bool_spec; intros; [assumption|discriminate]. }
  assert (ON : forall x : f32, is_finite x = true -> ok x) by (intros [s|s| |s m e B] F; try reflexivity; discriminate F).
  assert (K : forall x lo hi : f32, is_finite x = true -> is_finite lo = true -> is_finite hi = true -> nleb lo hi = true ->
    let c := Max (Min x hi) lo in is_finite c = true /\ B2R lo <= B2R c <= B2R hi /\
    forall q, B2R lo <= q <= B2R hi -> (B2R c - B2R x) * (B2R c - B2R x) <= (q - B2R x) * (q - B2R x)).
  { intros x lo hi Fx Fl Fh L c. destruct (clamp_coord x lo hi (ON x Fx) L) as (A & B & C & _). fold c in A, B, C.
    assert (Fc : is_finite c = true) by (destruct C as [->|[[_ ->]|[_ ->]]]; assumption).
    split; [exact Fc|]. pose proof (LF _ _ Fl Fc A). pose proof (LF _ _ Fc Fh B). split; [lra|].
    intros q Q. destruct C as [->|[[X ->]|[X ->]]]; [replace (_ * _) with 0 by ring; apply Rle_0_sqr| |].
    - pose proof (LF _ _ Fx Fl X). nra.
    - pose proof (LF _ _ Fh Fx X). nra. }
  intros b p (F1&F2&F3) (G1&G2&G3) (P1&P2&P3) (N1&N2&N3).
  destruct (K _ _ _ P1 F1 G1 N1) as (X1&X2&X3). destruct (K _ _ _ P2 F2 G2 N2) as (Y1&Y2&Y3). destruct (K _ _ _ P3 F3 G3 N3) as (Z1&Z2&Z3).
  unfold AABB_ClosestPoint, vClamp, vMin, vMax, finitev, realv. cbn [vx vy vz minPoint maxPoint]. split; [tauto|].
  split; [unfold in_box; cbn; tauto|]. intros q (Q1&Q2&Q3). cbn in Q1, Q2, Q3.
  unfold dist. apply norm_le_cmp. unfold dot, minus. cbn [vx vy vz].
  pose proof (X3 _ Q1). pose proof (Y3 _ Q2). pose proof (Z3 _ Q3). lra.
Qed.
Print Assumptions C21_closest_nearest_f32.
Example C21_witness : box_ok (Box (V3 0 0 0) (V3 1 1 1)) /\ AABB_ClosestPoint (Box (V3 0 0 0) (V3 1 1 1)) (V3 3 (1/2) (-4)) = V3 1 (1/2) 0 /\
  let f a := f32_of_bits a in let v a b c := V3 (f a) (f b) (f c) : vec f32 in
  finitev (v 0x40400000 0x3F000000 0xC0800000)%Z /\ nonempty (Box (v 0 0 0) (v 0x3F800000 0x3F800000 0x3F800000))%Z.
Proof.
  split; [unfold box_ok; cbn; lra|]. split; [|repeat split; reflexivity].
  unfold AABB_ClosestPoint, vClamp, vMin, vMax. cbn [vx vy vz minPoint maxPoint]. rewrite !Max_R, !Min_R.
  f_equal; unfold Rmin; destruct (Rle_dec _ _); unfold Rmax; destruct (Rle_dec _ _); lra.
Qed.

(** ** C22 *)
Theorem C22_box_sphere : forall (b : aabb R) (s : sphere R), box_ok b -> 0 <= srad s ->
  (AABB_IntersectsSphere b s = true <-> exists p, in_box b p /\ in_sphere s p).
Proof.
  intros b s K Hr. unfold AABB_IntersectsSphere. rsimpl. rewrite Rleb_true. toR.
  rewrite <- norm_sq_le by assumption. fold (dist (AABB_ClosestPoint b (spos s)) (spos s)). split.
  - intros L. exists (AABB_ClosestPoint b (spos s)). split; [now apply closest_in_box|]. unfold in_sphere. now rewrite dist_sym.
  - intros (p & I & S). unfold in_sphere in S. rewrite dist_sym in S.
    destruct (C21_closest_nearest b (spos s) p K I) as [D _]. lra.
Qed.
Print Assumptions C22_box_sphere.
Example C22_witness : AABB_IntersectsSphere (Box (V3 0 0 0) (V3 1 1 1) : aabb R) (Sph (V3 4 1 5) 5) = true /\
  AABB_IntersectsSphere (Box (V3 0 0 0) (V3 1 1 1) : aabb R) (Sph (V3 4 1 5) 4) = false.
Proof.
  assert (E : AABB_ClosestPoint (Box (V3 0 0 0) (V3 1 1 1)) (V3 4 1 5) = V3 1 1 1).
  { unfold AABB_ClosestPoint, vClamp, vMin, vMax. cbn [vx vy vz minPoint maxPoint]. rewrite !Max_R, !Min_R.
    f_equal; unfold Rmin; destruct (Rle_dec _ _); unfold Rmax; destruct (Rle_dec _ _); lra. }
  unfold AABB_IntersectsSphere. cbn [spos srad]. rewrite E. toR. unfold dot, minus. cbn [vx vy vz]. rsimpl. split; rcase; lra || reflexivity.
Qed.
