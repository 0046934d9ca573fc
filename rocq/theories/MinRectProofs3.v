(** Rotating calipers: rectangles, ranks, the loop. *)
From Coq Require Import Reals Lra Psatz Bool List Lia PeanoNat.
From Verif Require Import Num NumR ScalarModel ScalarProofs Vec2Model Vec2Spec Vec2Props HullModel HullSpec HullProofs HullProps2 MinRectModel MinRectSpec MinRectProofs MinRectProofs2.
Import ListNotations.
Open Scope R_scope.
(** The directions from (0,-1) to (1,0). *)
Definition inQ (w : p2) : Prop := 0 <= x2 w /\ y2 w <= 0.
(** A rectangle of the loop: it encloses the points and its area is the product of its sides. *)
Definition goodR (p : list p2) (r : rect2 R) : Prop := unit2 (rv r) /\ boxes (rv r) (rminU r) (rmaxU r) (rminV r) (rmaxV r) p /\ rarea r = (rmaxU r - rminU r) * (rmaxV r - rminV r) /\ 0 <= rarea r /\ touches (rv r) (rminU r) (rmaxU r) (rminV r) (rmaxV r) p.
Lemma area_trans a b c : unit2 b -> 0 <= dt a b -> 0 <= dt b c -> 0 <= area2 a b -> 0 <= area2 b c -> 0 <= area2 a c.
Proof. intros U D1 D2 A1 A2. replace (area2 a c) with (area2 a c * dt b b) by (rewrite U; ring). replace (area2 a c * dt b b) with (area2 a b * dt b c + dt a b * area2 b c) by (m2; ring). pose proof (Rmult_le_pos _ _ A1 D2). pose proof (Rmult_le_pos _ _ D1 A2). lra. Qed.
Lemma inQ_dt a b : inQ a -> inQ b -> 0 <= dt a b.
Proof. intros [A B] [C D]. unfold dt. assert (0 <= x2 a * x2 b) by nra. assert (0 <= y2 a * y2 b) by nra. lra. Qed.
(** How many points lie beyond the k-th support point in its middle direction. *)
Definition mid : p2 := V2 1 (-1).
Definition rank (p : list p2) (k : nat) (q : p2) : nat := length (filter (fun v => Rltb (dt (rot k mid) q) (dt (rot k mid) v)) p).
Lemma filter_le {A} (f : A -> bool) l : (length (filter f l) <= length l)%nat.
Proof. induction l as [|a l IH]; cbn; [lia|]. destruct (f a); cbn; lia. Qed.
Lemma filter_mono {A} (f g : A -> bool) l : (forall x, f x = true -> g x = true) -> (length (filter f l) <= length (filter g l))%nat.
Proof. intros H. induction l as [|a l IH]; cbn; [lia|]. destruct (f a) eqn:F; [rewrite (H a F); cbn; lia|]. destruct (g a); cbn; lia. Qed.
Lemma filter_strict {A} (f g : A -> bool) l x : (forall y, f y = true -> g y = true) -> In x l -> f x = false -> g x = true -> (length (filter f l) < length (filter g l))%nat.
Proof.
  intros H I F G. induction l as [|a l IH]; [destruct I|]. cbn. destruct I as [->|I].
  - rewrite F, G. cbn. pose proof (filter_mono f g l H). lia.
  - specialize (IH I). destruct (f a) eqn:Fa; [rewrite (H a Fa); cbn; lia|]. destruct (g a); cbn; lia.
Qed.
Lemma rank_less p k q q' : In q' p -> 0 < dt (rot k mid) (mi q' q) -> (rank p k q' < rank p k q)%nat.
Proof.
  intros I D. assert (E : dt (rot k mid) (mi q' q) = dt (rot k mid) q' - dt (rot k mid) q) by (m2; ring). rewrite E in D. unfold rank. apply (filter_strict _ _ p q').
  - intros y Y. apply Rltb_true in Y. apply Rltb_true. lra.
  - exact I.
  - apply Rltb_false. lra.
  - apply Rltb_true. lra.
Qed.
Definition total (p : list p2) (e : cal) : nat := (rank p 0 (qs p e 0) + rank p 1 (qs p e 1) + rank p 2 (qs p e 2) + rank p 3 (qs p e 3))%nat.
Lemma total_le p e : (total p e <= 4 * length p)%nat.
Proof. unfold total, rank. repeat match goal with |- context [length (filter ?f p)] => pose proof (filter_le f p); generalize dependent (length (filter f p)); intros end. lia. Qed.
Lemma rot_dt k a b : dt (rot k a) (rot k b) = dt a b.
Proof. destruct k as [|[|[|k]]]; unfold rot; m2; ring. Qed.

Section Poly.
  Variable p : list p2.
  Hypothesis OK : calok p.
  Lemma qs_in e : okcal p e -> forall k, In (qs p e k) p.
  Proof. intros V k. apply pointAt_in, V. Qed.
  Lemma rect_ok ed e : unit2 ed -> okcal p e -> sides p ed (qs p e) -> goodR p (calRect p ed e) /\ least_at (rarea (calRect p ed e)) ed p.
  Proof.
    intros U V S. pose proof (sides_bounds _ _ _ S) as B. destruct (sides_least p ed (qs p e) (qs_in e V) S) as [L G]. destruct (G _ _ _ _ B) as [X Y].
    destruct e as [[[e0 e1] e2] e3]. unfold calRect, goodR. cbv zeta. cbn [rv rminU rmaxU rminV rmaxV rarea]. unfold spanU, spanV, qs, sel in *. cbv beta in *.
    set (q0 := pointAt p e0) in *. set (q1 := pointAt p e1) in *. set (q2 := pointAt p e2) in *. set (q3 := pointAt p e3) in *.
    assert (P : forall q, PerpDot2 ed q = dt (left90 ed) q) by (intros; unfold PerpDot2; rsimpl; m2; ring). rewrite !P. change (Dot2 ed q1) with (dt ed q1). change (Dot2 ed q3) with (dt ed q3).
    rewrite !Min_R, !Max_R, Abs_R. rsimpl.
    assert (E1 : dt (left90 ed) (mi q2 q0) = dt (left90 ed) q2 - dt (left90 ed) q0) by (m2; ring). assert (E2 : dt ed (mi q1 q3) = dt ed q1 - dt ed q3) by (m2; ring). rewrite E1 in X, L. rewrite E2 in Y, L. clear E1 E2 G.
    set (a := dt (left90 ed) q0) in *. set (b := dt (left90 ed) q2) in *. set (c := dt ed q1) in *. set (d := dt ed q3) in *.
    rewrite (Rmin_left a b) by lra. rewrite (Rmax_right a b) by lra. rewrite (Rmin_right c d) by lra. rewrite (Rmax_left c d) by lra.
    assert (N : 0 <= (b - a) * (c - d)) by (apply Rmult_le_pos; lra).
    assert (AE : Rabs ((b - a) * (d - c)) = (b - a) * (c - d)) by (replace ((b - a) * (d - c)) with (- ((b - a) * (c - d))) by ring; rewrite Rabs_Ropp; now apply Rabs_pos_eq).
    rewrite AE. split; [|exact L]. split; [exact U|]. split; [exact B|]. split; [reflexivity|]. split; [exact N|]. pose proof (fun i => pointAt_in p i) as PI.
    repeat split; [exists q0|exists q2|exists q3|exists q1]; (split; [apply PI; first [exact (V 0%nat)|exact (V 1%nat)|exact (V 2%nat)|exact (V 3%nat)]|reflexivity]).
  Qed.
  Lemma step_rank ed e : unit2 ed -> okcal p e -> sides p ed (qs p e) -> inQ (fst (calStep p ed e)) -> (total p (snd (calStep p ed e)) < total p e)%nat.
  Proof.
    intros U V S Q. destruct (step_ok p OK ed e U V S) as (V' & _ & _ & (c & s & _ & _ & CS & EE) & j & J & RJ & NJ & SE).
    set (ed' := fst (calStep p ed e)) in *. set (e' := snd (calStep p ed e)) in *.
    assert (U' : unit2 ed') by (rewrite EE; now apply tb_unit).
    assert (LT : (rank p j (qs p e' j) < rank p j (qs p e j))%nat).
    { apply rank_less; [apply qs_in; exact V'|]. unfold qs. rewrite NJ. destruct (dir_R p OK (sel j e) (V j)) as (k & K & ED & _).
      set (z := mi (pointAt p (nextP (length p) (sel j e))) (pointAt p (sel j e))) in *.
      assert (D : k * dt (rot j mid) z = dt mid ed'). { rewrite <- (rot_dt j mid ed'), RJ, ED. unfold sc. m2. ring. }
      assert (P : 0 < dt mid ed'). { destruct Q as [A B]. unfold unit2, dt in U'. unfold dt, mid. cbn [x2 y2]. nra. }
      nra. }
    assert (EQ : forall k, (k < 4)%nat -> k <> j -> rank p k (qs p e' k) = rank p k (qs p e k)) by (intros k K N; unfold qs; now rewrite (SE k K N)).
    unfold total. destruct j as [|[|[|[|j]]]]; try lia;
      repeat match goal with |- context [rank p ?k (qs p e' ?k)] => rewrite (EQ k) by lia end; lia.
  Qed.
  (** One step extends the range of directions settled. *)
  Lemma step_least m m' ed e : 0 <= m' -> unit2 ed -> inQ ed -> okcal p e -> sides p ed (qs p e) -> m' <= m -> least_at m ed p -> least_at m' (fst (calStep p ed e)) p ->
    forall w, unit2 w -> inQ w -> 0 <= area2 ed w -> 0 <= area2 w (fst (calStep p ed e)) -> least_at m' w p.
  Proof.
    intros M0 U Q V S MM L L' w W QW A A'. destruct (step_ok p OK ed e U V S) as (V' & S1 & _ & (c & s & C & SS & CS & EE) & _). set (ed' := fst (calStep p ed e)) in *.
    assert (U' : unit2 ed') by (rewrite EE; now apply tb_unit).
    assert (D1 : dt ed ed' = c). { rewrite EE. transitivity (c * dt ed ed); [unfold tb; m2; ring|rewrite U; ring]. }
    assert (A1 : area2 ed ed' = s). { rewrite EE. transitivity (s * dt ed ed); [unfold tb; m2; ring|rewrite U; ring]. }
    destruct (cone ed ed' w) as (a & b & HA & HB & E); try assumption; try lra; [now apply inQ_dt|]. rewrite E in *.
    apply (least_between m' p (qs p e)); try assumption; [now apply qs_in|]. now apply (least_mono m).
  Qed.
  Lemma best_R b r : calBest (Some b) r = if Rltb (rarea r) (rarea b) then r else b. Proof. reflexivity. Qed.
  Lemma loop_ok E1 : unit2 E1 -> inQ E1 -> forall fuel ed e b, (total p e < fuel)%nat -> unit2 ed -> 0 <= x2 ed -> okcal p e -> sides p ed (qs p e) -> goodR p b -> (y2 ed <= 0 -> 0 <= area2 E1 ed) ->
    (forall w, unit2 w -> inQ w -> 0 <= area2 E1 w -> 0 <= area2 w ed -> least_at (rarea b) w p) ->
    exists r, calLoop fuel p ed e (Some b) = Some r /\ goodR p r /\ forall w, unit2 w -> inQ w -> 0 <= area2 E1 w -> least_at (rarea r) w p.
  Proof.
    intros U1 Q1.
    assert (End : forall fuel ed e b, 0 < y2 ed -> calLoop fuel p ed e (Some b) = Some b).
    { intros fuel ed e b Y. destruct fuel; cbn [calLoop]; rsimpl; rewrite (proj2 (Rleb_false _ _)) by lra; reflexivity. }
    induction fuel as [|f IH]; intros ed e b F U X V S G A1 L; [lia|].
    destruct (Rle_lt_dec (y2 ed) 0) as [Y|Y].
    2:{ exists b. split; [now apply End|]. split; [exact G|]. intros w W Q A. apply L; try assumption. destruct Q as [Qx Qy]. unfold area2. nra. }
    assert (Q : inQ ed) by (split; assumption). specialize (A1 Y).
    cbn [calLoop]. rsimpl. rewrite (proj2 (Rleb_true _ _)) by exact Y.
    pose proof (step_least) as SL. pose proof (step_rank ed e U V S) as SR. destruct (step_ok p OK ed e U V S) as (V' & S1 & S2 & (c & s & C & SS & CS & EE) & _).
    destruct (calStep p ed e) as [ed' e'] eqn:ST. cbn [fst snd] in *.
    assert (U' : unit2 ed') by (rewrite EE; now apply tb_unit).
    destruct (rect_ok ed' e' U' V' S2) as [G' L']. set (r := calRect p ed' e') in *. rewrite best_R.
    assert (GB : goodR p (if Rltb (rarea r) (rarea b) then r else b) /\ rarea (if Rltb (rarea r) (rarea b) then r else b) <= rarea b /\ rarea (if Rltb (rarea r) (rarea b) then r else b) <= rarea r).
    { destruct (Rltb_spec (rarea r) (rarea b)); (split; [assumption|]); lra. }
    set (b' := if Rltb (rarea r) (rarea b) then r else b) in *. clearbody b'. destruct GB as (GB & LB & LR).
    assert (X' : 0 <= x2 ed'). { rewrite EE. unfold tb. cbn [x2]. destruct Q as [Qx Qy]. assert (0 <= c * x2 ed) by nra. assert (0 <= s * - y2 ed) by nra. lra. }
    assert (Sed : 0 <= area2 ed ed'). { rewrite EE. replace (area2 ed (tb c s ed)) with (s * dt ed ed) by (unfold tb; m2; ring). rewrite U. lra. }
    assert (LL : forall w, unit2 w -> inQ w -> 0 <= area2 E1 w -> 0 <= area2 w ed' -> least_at (rarea b') w p).
    { intros w W QW A A'. destruct (Rle_lt_dec 0 (area2 w ed)) as [B|B]; [apply (least_mono (rarea b)); [exact LB|now apply L]|].
      specialize (SL (rarea b) (rarea b') ed e). rewrite ST in SL. cbn [fst] in SL. apply SL; try assumption; [apply GB|apply L; try assumption; unfold area2; lra|now apply (least_mono (rarea r))|].
      replace (area2 ed w) with (- area2 w ed) by (unfold area2; ring). lra. }
    destruct (Rle_lt_dec (y2 ed') 0) as [Y'|Y'].
    - assert (Q' : inQ ed') by (split; assumption). apply IH; try assumption; [specialize (SR Q'); lia|]. intros _. apply (area_trans E1 ed ed'); try assumption; now apply inQ_dt.
    - exists b'. split; [now apply End|]. split; [exact GB|]. intros w W QW A. apply LL; try assumption. destruct QW as [Qx Qy]. unfold area2. nra.
  Qed.
  (** From the start: every unit direction. *)
  Lemma run_ok fuel e : (4 * length p < fuel)%nat -> okcal p e -> sides p (V2 0 (-1)) (qs p e) -> exists r, calLoop fuel p (V2 0 (-1)) e None = Some r /\ goodR p r /\ forall w, unit2 w -> least_at (rarea r) w p.
  Proof.
    intros F V S. set (E0 := V2 0 (-1)) in *. assert (U0 : unit2 E0) by (unfold unit2, E0, dt; cbn; ring).
    destruct fuel as [|f]; [lia|]. cbn [calLoop]. rsimpl. assert (Y0 : Rleb (y2 E0) 0 = true) by (apply Rleb_true; unfold E0; cbn; lra). rewrite Y0.
    pose proof (step_rank E0 e U0 V S) as SR. pose proof (step_least) as SL. specialize (fun m => SL m m E0 e). destruct (step_ok p OK E0 e U0 V S) as (V' & S1 & S2 & (c & s & C & SS & CS & EE) & _).
    destruct (calStep p E0 e) as [ed' e'] eqn:ST. cbn [fst snd] in *.
    assert (U' : unit2 ed') by (rewrite EE; now apply tb_unit).
    assert (Q0 : inQ E0) by (unfold inQ, E0; cbn; lra).
    assert (Q' : inQ ed') by (rewrite EE; unfold inQ, tb, E0; cbn; lra). specialize (SR Q'). pose proof (total_le p e) as TL.
    destruct (rect_ok ed' e' U' V' S2) as [G' L']. set (r0 := calRect p ed' e') in *. change (calBest None r0) with r0.
    destruct (loop_ok ed' U' Q' f ed' e' r0) as (r & E & G & L); try assumption; [lia|apply Q'|intros _; unfold area2; lra| |].
    { intros w W QW A B. assert (Z : area2 w ed' = 0) by (replace (area2 ed' w) with (- area2 w ed') in A by (unfold area2; ring); lra).
      destruct (tb_self w ed' W U') as [T N]. rewrite Z in T, N. assert (D : dt w ed' = 1) by (pose proof (inQ_dt w ed' QW Q'); nra). rewrite D in T. assert (WE : w = ed') by (rewrite <- T; unfold tb; apply v2_ext; cbn; ring). rewrite WE. exact L'. }
    exists r. split; [exact E|]. split; [exact G|].
    assert (LE : least_at (rarea r) ed' p) by (apply L; try assumption; unfold area2; lra).
    assert (L1 : least_at (rarea r) (V2 1 0) p) by (apply L; [unfold unit2, dt; cbn; ring|unfold inQ; cbn; lra|unfold area2; cbn; destruct Q' as [_ Q2]; lra]).
    assert (L0 : least_at (rarea r) E0 p) by (apply least_turn; replace (left90 E0) with (V2 1 0); [exact L1|unfold left90, E0; apply v2_ext; cbn; ring]).
    assert (LQ : forall w, unit2 w -> inQ w -> least_at (rarea r) w p).
    { intros w W QW. destruct (Rle_lt_dec 0 (area2 ed' w)) as [A|A]; [now apply L|]. apply (SL (rarea r)); try assumption; [apply G|lra| |].
      - destruct QW as [Qx Qy]. unfold area2, E0. cbn. lra.
      - replace (area2 w ed') with (- area2 ed' w) by (unfold area2; ring). lra. }
    intros w W. destruct (Rle_lt_dec 0 (x2 w)) as [X|X]; destruct (Rle_lt_dec (y2 w) 0) as [Y|Y].
    - apply LQ; [exact W|split; assumption].
    - (* x>=0, y>0: turn right once *) do 3 apply (proj1 (least_turn _ _ _)). apply LQ; [unfold unit2 in *; clear - W; m2; lra|unfold inQ, left90; cbn; lra].
    - (* x<0, y<=0: turn left once *) apply least_turn. apply LQ; [unfold unit2 in *; clear - W; m2; lra|unfold inQ, left90; cbn; lra].
    - do 2 apply (proj1 (least_turn _ _ _)). apply LQ; [unfold unit2 in *; clear - W; m2; lra|unfold inQ, left90; cbn; lra].
  Qed.
  (** The start: extreme points along x and y. *)
  Lemma start_ok : okcal p (calStart p) /\ sides p (V2 0 (-1)) (qs p (calStart p)).
  Proof.
    set (P := fun (e : cal) (m : nat) => okcal p e /\ forall i, (i < m)%nat -> (i < length p)%nat -> x2 (qs p e 0) <= x2 (pointAt p i) /\ y2 (qs p e 1) <= y2 (pointAt p i) /\ x2 (pointAt p i) <= x2 (qs p e 2) /\ y2 (pointAt p i) <= y2 (qs p e 3)).
    assert (G : forall l m e, (0 < m)%nat -> (m + l <= length p)%nat -> P e m -> P (fold_left (calInit p) (seq m l) e) (m + l)%nat).
    { induction l as [|l IH]; intros m e M0 ML H; [cbn; now rewrite Nat.add_0_r|]. replace (m + S l)%nat with (S m + l)%nat by lia. cbn [seq fold_left]. apply IH; [lia|lia|]. clear IH.
      destruct H as [H1 H2]. destruct e as [[[e0 e1] e2] e3]. pose proof (H1 0%nat) as V0. pose proof (H1 1%nat) as V1. pose proof (H1 2%nat) as V2'. pose proof (H1 3%nat) as V3. unfold P, qs, sel in *.
      assert (O : forall a b c d, (a < length p)%nat -> (b < length p)%nat -> (c < length p)%nat -> (d < length p)%nat -> okcal p (a,b,c,d)) by (intros a b c d ? ? ? ? k; unfold sel; destruct k as [|[|[|k]]]; assumption).
      destruct (H2 0%nat) as (MA & MB & MC & MD); [lia|lia|]. assert (MX : x2 (pointAt p e0) <= x2 (pointAt p e2)) by lra. assert (MY : y2 (pointAt p e1) <= y2 (pointAt p e3)) by lra. clear MA MB MC MD.
      unfold calInit. rsimpl.
      destruct (Rltb_spec (x2 (pointAt p m)) (x2 (pointAt p e0))); [|destruct (Rltb_spec (x2 (pointAt p e2)) (x2 (pointAt p m)))];
      (destruct (Rltb_spec (y2 (pointAt p m)) (y2 (pointAt p e1))); [|destruct (Rltb_spec (y2 (pointAt p e3)) (y2 (pointAt p m)))]);
      (split; [apply O; lia|]); intros i I J; (destruct (Nat.eq_dec i m) as [->|N]; [lra|]); specialize (H2 i ltac:(lia) J); lra. }
    assert (P1 : P (0%nat,0%nat,0%nat,0%nat) 1%nat). { destruct OK as [L _]. split; [intros k; destruct k as [|[|[|k]]]; exact L|]. intros i I J. replace i with 0%nat by lia. unfold qs, sel. lra. }
    pose proof (proj1 OK) as L. specialize (G (length p - 1)%nat 1%nat _ ltac:(lia) ltac:(lia) P1). replace (1 + (length p - 1))%nat with (length p) in G by lia. destruct G as [G1 G2]. split; [exact G1|].
    assert (G3 : forall v, In v p -> x2 (qs p (calStart p) 0) <= x2 v /\ y2 (qs p (calStart p) 1) <= y2 v /\ x2 v <= x2 (qs p (calStart p) 2) /\ y2 v <= y2 (qs p (calStart p) 3)).
    { intros v I. destruct (In_nth p v (V2 0 0) I) as (i & LI & <-). exact (G2 i LI LI). }
    intros k K v I. destruct (G3 v I) as (A & B & C & D). destruct k as [|[|[|[|k]]]]; try lia; unfold rot; m2; lra.
  Qed.
End Poly.
