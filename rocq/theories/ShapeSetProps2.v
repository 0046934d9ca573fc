(** C112, continued: boxes and polygons compared in binary32, where the answers are exact. *)
From Coq Require Import Reals ZArith Bool List.
From Verif Require Import Num NumR F32 ScalarModel ScalarProofs ScalarProps Vec3Model GeoTypes AabbModel AabbSpec AabbProofs AabbProps PolygonModel PolyTopoModel PolyhedronModel ShapeSetModel.
Import ListNotations.

Section Order.
  Context {T : Type} `{OL : OrdLaws T}.
  Lemma contains_within (b m : aabb T) : AABB_ContainsAABB b m = true <-> within m b.
  Proof. unfold AABB_ContainsAABB, AABB_ContainsMinMax, within. rewrite !andb_true_iff. tauto. Qed.
  Lemma fold_within : forall (l : list (vec T)) (b c : aabb T), okb b -> (forall p, In p l -> okv p) ->
    okb (fold_left AABB_Enclose l b) /\ (within (fold_left AABB_Enclose l b) c <-> within b c /\ forall p, In p l -> inside c p).
  Proof.
    induction l as [|p l IH]; intros b c O F; cbn [fold_left].
    - split; [exact O|]. split; [intros W; split; [exact W|intros _ []]|now intros []].
    - assert (Op : okv p) by (apply F; now left). change (AABB_Enclose b p) with (AABB_EncloseMinMax b p p).
      destruct (IH (AABB_EncloseMinMax b p p) c (encloseMM_okb b p p O Op Op) (fun q Q => F q (or_intror Q))) as [O2 W2]. split; [exact O2|]. rewrite W2, encloseMM_within, <- inside_within by assumption. split.
      + intros [[A B] C]. split; [exact A|]. intros q [<-|Q]; [exact B|now apply C].
      + intros [A B]. split; [split; [exact A|apply B; now left]|]. intros q Q. apply B. now right.
  Qed.
  Lemma polygon_within (ps : list (vec T)) : ps <> [] -> (forall p, In p ps -> okv p) -> exists m, Poly_MinimalEnclosingAABB ps = Some m /\ okb m /\ forall c, within m c <-> forall p, In p ps -> inside c p.
  Proof.
    intros N F. destruct ps as [|p rest]; [contradiction|]. assert (Op : okv p) by (apply F; now left). eexists. split; [reflexivity|].
    assert (G : forall c, okb (fold_left AABB_Enclose rest (Box p p)) /\ (within (fold_left AABB_Enclose rest (Box p p)) c <-> within (Box p p) c /\ forall q, In q rest -> inside c q)) by (intros c; apply fold_within; [now split|intros q Q; apply F; now right]).
    split; [exact (proj1 (G (Box p p)))|]. intros c. rewrite (proj2 (G c)), <- inside_within. split.
    - intros [A B] q [<-|Q]; [exact A|now apply B].
    - intros A. split; [apply A; now left|]. intros q Q. apply A. now right.
  Qed.
  (** Any ordered number type, binary32 included: the answer is exactly "every vertex passes Contains(point)". *)
  Theorem C112_box_contains_exact (b : aabb T) (ps : list (vec T)) (h : polyhedron T) :
    (ps <> [] -> (forall p, In p ps -> okv p) -> AABB_ContainsPolygon b ps = Some (forallb (AABB_Contains b) ps)) /\
    (hv h <> [] -> (forall p, In p (hv h) -> okv p) -> AABB_ContainsPolyhedron b h = Some (forallb (AABB_Contains b) (hv h))).
  Proof.
    assert (G : forall vs, vs <> [] -> (forall p, In p vs -> okv p) -> AABB_ContainsPolygon b vs = Some (forallb (AABB_Contains b) vs)).
    { intros vs N F. destruct (polygon_within vs N F) as (m & E & _ & W). unfold AABB_ContainsPolygon. rewrite E. cbn [option_map]. f_equal. apply eq_true_iff_eq. rewrite contains_within, W, forallb_forall. split; intros K p P; [apply C20_contains_point|apply C20_contains_point]; now apply K. }
    split; [apply G|exact (G (hv h))].
  Qed.
  (** Enclose: nothing is lost to rounding, and no smaller box would do. *)
  Theorem C112_box_encloses_exact (b : aabb T) (ps : list (vec T)) : okb b -> (forall p, In p ps -> okv p) -> let r := AABB_EnclosePolygon b ps in
    okb r /\ within b r /\ (forall p, In p ps -> AABB_Contains r p = true) /\ forall c, within b c -> (forall p, In p ps -> AABB_Contains c p = true) -> within r c.
  Proof.
    intros O F r. assert (W : okb r /\ forall c, within r c <-> within b c /\ forall p, In p ps -> inside c p).
    { unfold r, AABB_EnclosePolygon. destruct ps as [|p0 rest] eqn:EP; [cbn; split; [exact O|intros c; split; [intros K; split; [exact K|intros _ []]|now intros []]]|]. rewrite <- EP in *.
      destruct (polygon_within ps) as (m & -> & Om & W); [rewrite EP; discriminate|exact F|]. unfold AABB_EncloseAABB. destruct Om as [O1 O2]. split; [now apply encloseMM_okb|].
      intros c. rewrite encloseMM_within by assumption. assert (E : Box (minPoint m) (maxPoint m) = m) by now destruct m. now rewrite E, W. }
    destruct W as [Or W]. destruct (proj1 (W r) (within_refl r Or)) as [A B]. split; [exact Or|]. split; [exact A|]. split; [intros p P; apply C20_contains_point; now apply B|].
    intros c C1 C2. apply W. split; [exact C1|]. intros p P. apply C20_contains_point. now apply C2.
  Qed.
End Order.
Print Assumptions C112_box_contains_exact.
Print Assumptions C112_box_encloses_exact.
(** The box of an empty polygon is the negative infinite one: every box contains it, and enclosing it changes no bound. *)
Theorem C112_empty_f32 (b : aabb f32) : okb b -> AABB_ContainsAABB b (AABB_NegativeInfinity : aabb f32) = true /\ within b (AABB_EncloseAABB b AABB_NegativeInfinity) /\ within (AABB_EncloseAABB b AABB_NegativeInfinity) b.
Proof.
  assert (L1 : forall x : f32, ok x -> nleb x ninf = true) by (intros [s|[|]| |s m e B] O; try reflexivity; discriminate O).
  assert (L2 : forall x : f32, ok x -> nleb (nneg ninf) x = true) by (intros [s|[|]| |s m e B] O; try reflexivity; discriminate O).
  intros O. pose proof O as [(O1&O2&O3) (O4&O5&O6)]. assert (W : within (AABB_NegativeInfinity : aabb f32) b) by (repeat split; (apply L1 || apply L2); assumption).
  assert (ON : okb (AABB_NegativeInfinity : aabb f32)) by (repeat split). split; [now apply contains_within|].
  assert (E : forall c, within (AABB_EncloseAABB b AABB_NegativeInfinity) c <-> within b c /\ within (AABB_NegativeInfinity : aabb f32) c) by (intros c; destruct ON; now apply encloseMM_within).
  assert (OE : okb (AABB_EncloseAABB b (AABB_NegativeInfinity : aabb f32))) by (destruct ON; now apply encloseMM_okb).
  split; [exact (proj1 (proj1 (E _) (within_refl _ OE)))|]. apply E. split; [now apply within_refl|exact W].
Qed.
Print Assumptions C112_empty_f32.
Example C112_f32_witness :
  let p (a b c : Z) := V3 (f32_of_bits a) (f32_of_bits b) (f32_of_bits c) : vec f32 in
  let sq := [p 0x3F800000 0x80000000 0x40000000; p 0x3F800000 0x3F800000 0x40000000; p 0x00000000 0x3F800000 0x40000000]%Z in
  (forall q, In q sq -> okv q) /\ AABB_ContainsPolygon (Box (p 0x80000000 0x00000000 0x3F800000) (p 0x3F800000 0x3F800000 0x40000000))%Z sq = Some true /\
  AABB_ContainsPolygon (Box (p 0x80000000 0x00000000 0x3F800000) (p 0x3F7FFFFF 0x3F800000 0x40000000))%Z sq = Some false.
Proof. cbv zeta. split; [intros q [<-|[<-|[<-|[]]]]; repeat split|]. split; reflexivity. Qed.
